(** Scaling budgets: when do * and / fail, and what do they compute. *)
From Coq Require Import String Bool ZArith QArith Qabs Lqa Lia List.
From Verif Require Import Prelude Budget BudgetProofs.
Import ListNotations.
Local Open Scope Q_scope.

Section Scale.
Variable R : rounding.

Lemma fin_num_float o q : pynum_x o = Some (XFin q) -> 0 <= q ->
  (exists p, to_float R o = Ok (FX (XFin p)) /\ 0 <= p
             /\ (0 < q -> pynum_x o = Some (XFin p) \/ 1 <= p) /\ (1 <= q -> 1 <= p))
  \/ to_float R o = Err OverflowError.
Proof.
  intros E Hq. destruct o as [z|[x|]]; simpl in *; try discriminate; inversion E; subst.
  - unfold int_to_float. pose proof (rnd_nonneg R (z2q z) Hq) as N.
    assert (M : 1 <= z2q z -> xle (XFin 1) (rnd R (z2q z))).
    { intros H. eapply xle_trans; [|apply rnd_mono; exact H].
      apply xeq_xle, xeq_sym, rnd_one. }
    destruct (rnd R (z2q z)) as [p| |] eqn:Er; auto.
    left. exists p. split; [reflexivity|]. split; [exact N|]. split.
    + intros P. right. apply M. unfold z2q in *. change 0 with (inject_Z 0) in P.
      rewrite <- Zlt_Qlt in P. change 1 with (inject_Z 1). rewrite <- Zle_Qle. lia.
    + intros P. apply M; exact P.
  - left. exists q. auto.
Qed.

Lemma pmul_pos a o q : nnum a -> pynum_x o = Some (XFin q) -> 0 < q ->
  (exists c, pmul R a o = Ok c /\ nnum c) \/ pmul R a o = Err OverflowError.
Proof.
  intros Ha Eo Hq.
  assert (Hq' : 0 <= q) by lra.
  assert (G : (exists c, (let* x := to_float R a in let* y := to_float R o in
                 Ok (PFlt (fmul R x y))) = Ok c /\ nnum c)
     \/ (let* x := to_float R a in let* y := to_float R o in
                 Ok (PFlt (fmul R x y))) = Err OverflowError).
  { destruct (nnum_to_float R a Ha) as [(v & Ev & Nv)|Ev]; rewrite Ev; cbn [bind]; auto.
    destruct (fin_num_float o q Eo Hq') as [(p & Ep & P0 & P1 & _)|Ep]; rewrite Ep; cbn [bind]; auto.
    left. eexists; split; [reflexivity|].
    assert (Pp : 0 < p).
    { destruct (P1 Hq) as [H|H]; [|lra]. rewrite Eo in H. inversion H; subst; assumption. }
    destruct (nonneg_cases _ Nv) as [(x & -> & Hx)| ->]; simpl.
    - exists (rnd R (x * p)); split; [reflexivity|]. apply rnd_nonneg.
      apply Qmult_le_0_compat; lra.
    - unfold inf_times. assert (Qeq_bool p 0 = false) as ->.
      { apply not_true_is_false. rewrite Qeq_bool_iff. lra. }
      assert (Qle_bool 0 p = true) as -> by (apply Qle_bool_iff; lra).
      simpl. exists XPInf; split; [reflexivity|exact I]. }
  destruct a as [za|fa]; destruct o as [zo|fo]; try exact G.
  left. eexists; split; [reflexivity|].
  destruct Ha as (v & Ev & Nv). simpl in Ev, Eo. inversion Ev; inversion Eo; subst.
  exists (XFin (z2q (za * zo))); split; [reflexivity|]. simpl in *. unfold z2q in *.
  rewrite inject_Z_mult. apply Qmult_le_0_compat; lra.
Qed.

Lemma pdiv_pos a o q : nnum a -> pynum_x o = Some (XFin q) -> 0 < q ->
  (exists c, pdiv R a o = Ok c /\ nnum c /\ (le1 a -> 1 <= q -> le1 c))
  \/ pdiv R a o = Err OverflowError.
Proof.
  intros Ha Eo Hq.
  assert (Hq' : 0 <= q) by lra.
  assert (DIV : forall x p, 0 <= x -> 0 < p -> 0 <= x / p).
  { intros x p Hx Hp. apply Qle_shift_div_l; [assumption|]. rewrite Qmult_0_l. assumption. }
  assert (DIV1 : forall x p, x <= 1 -> 1 <= p -> x / p <= 1).
  { intros x p Hx Hp. apply Qle_shift_div_r; lra. }
  assert (R1 : forall x, x <= 1 -> xle (rnd R x) (XFin 1)).
  { intros x Hx. eapply xle_trans; [apply rnd_mono; exact Hx|]. apply xeq_xle, rnd_one. }
  assert (G : (exists c, (let* x := to_float R a in let* y := to_float R o in
                 let* r := fdiv R x y in Ok (PFlt r)) = Ok c /\ nnum c /\ (le1 a -> 1 <= q -> le1 c))
     \/ (let* x := to_float R a in let* y := to_float R o in
                 let* r := fdiv R x y in Ok (PFlt r)) = Err OverflowError).
  { destruct (nnum_to_float R a Ha) as [(v & Ev & Nv)|Ev]; rewrite Ev; cbn [bind]; auto.
    destruct (fin_num_float o q Eo Hq') as [(p & Ep & P0 & P1 & P2)|Ep]; rewrite Ep; cbn [bind]; auto.
    left.
    assert (Pp : 0 < p).
    { destruct (P1 Hq) as [H|H]; [|lra]. rewrite Eo in H. inversion H; subst; assumption. }
    assert (Z : Qeq_bool p 0 = false).
    { apply not_true_is_false. rewrite Qeq_bool_iff. lra. }
    destruct (nonneg_cases _ Nv) as [(x & -> & Hx)| ->]; unfold fdiv; rewrite Z; cbn [bind].
    - eexists; split; [reflexivity|]. split.
      + exists (rnd R (x / p)); split; [reflexivity|]. apply rnd_nonneg. apply DIV; assumption.
      + intros (u & Eu & L1) Hq1. exists (rnd R (x / p)); split; [reflexivity|].
        apply R1. apply DIV1; [|apply P2; assumption].
        destruct a as [za|[fa|]]; simpl in Eu, Ev; try discriminate.
        * inversion Eu; subst. unfold int_to_float in Ev. simpl in L1. pose proof (R1 _ L1) as M.
          destruct (rnd R (z2q za)); inversion Ev; subst. exact M.
        * inversion Eu; inversion Ev; subst. exact L1.
    - unfold inf_times. rewrite Z.
      assert (Qle_bool 0 p = true) as -> by (apply Qle_bool_iff; lra).
      simpl. eexists; split; [reflexivity|]. split.
      + exists XPInf; split; [reflexivity|exact I].
      + intros (u & Eu & L1) _. exfalso.
        destruct a as [za|[fa|]]; simpl in Eu, Ev; try discriminate.
        * unfold int_to_float in Ev. destruct (rnd R (z2q za)); discriminate.
        * inversion Eu; inversion Ev; subst. simpl in L1; tauto. }
  destruct a as [za|fa]; destruct o as [zo|fo]; try exact G.
  simpl in Eo. inversion Eo; subst. unfold pdiv.
  assert (Zo : Z.eqb zo 0 = false).
  { apply Z.eqb_neq. intros ->. exact (Qlt_irrefl 0 Hq). }
  rewrite Zo. destruct Ha as (v & Ev & Nv). simpl in Ev. inversion Ev; subst. simpl in Nv.
  pose proof (rnd_nonneg R (z2q za / z2q zo) (DIV _ _ Nv Hq)) as N.
  destruct (rnd R (z2q za / z2q zo)) as [r| |] eqn:Er; auto.
  left. eexists; split; [reflexivity|]. split.
  - exists (XFin r); split; [reflexivity|exact N].
  - intros (u & Eu & L1) Hq1. simpl in Eu. inversion Eu; subst. simpl in L1.
    exists (XFin r); split; [reflexivity|]. rewrite <- Er. apply R1, DIV1; assumption.
Qed.

Lemma check_factor_fin o q : pynum_x o = Some (XFin q) -> 0 <= q ->
  check_factor R o = Ok tt \/ check_factor R o = Err OverflowError.
Proof.
  intros Eo Hq. unfold check_factor, plt. rewrite Eo. simpl.
  assert (xltb (XFin q) (XFin (z2q 0)) = false) as -> by (apply xltb_false; exact Hq).
  unfold isnan, isinf.
  destruct (fin_num_float o q Eo Hq) as [(p & Ep & _)|Ep]; rewrite Ep; cbn [bind]; auto.
Qed.

Lemma check_divisor_fin o q : pynum_x o = Some (XFin q) -> 0 < q ->
  check_divisor R o = Ok tt \/ check_divisor R o = Err OverflowError.
Proof.
  intros Eo Hq. unfold check_divisor, ple. rewrite Eo. simpl.
  assert (Qle_bool q (z2q 0) = false) as ->.
  { apply not_true_is_false. rewrite Qle_bool_iff. change (z2q 0) with 0. lra. }
  unfold isnan, isinf.
  destruct (fin_num_float o q Eo) as [(p & Ep & _)|Ep]; [lra| |]; rewrite Ep; cbn [bind]; auto.
Qed.

Lemma bmul_total b o q : valid b -> pynum_x o = Some (XFin q) -> 0 < q ->
  (exists c, bmul R b o = Ok c) \/ bmul R b o = Err OverflowError.
Proof.
  intros V Eo Hq. unfold bmul.
  destruct (check_factor_fin o q Eo) as [E|E]; [lra| |]; rewrite E; cbn [bind]; auto.
  destruct b as [e|e d|r]; cbn [valid] in V.
  - destruct (pmul_pos _ o q (nnum_tiof R _ V) Eo Hq) as [(c & Ec & Nc)|Ec]; rewrite Ec; cbn [bind]; auto.
    destruct (mk_pure_nnum R c Nc) as [(v & Ev & _)|Ev]; rewrite Ev; eauto.
  - destruct V as (A & B & C).
    destruct (pmul_pos _ o q (nnum_tiof R _ A) Eo Hq) as [(c & Ec & Nc)|Ec]; rewrite Ec; cbn [bind]; auto.
    destruct (pmul_pos _ o q (nnum_tiof R _ B) Eo Hq) as [(c' & Ec' & Nc')|Ec']; rewrite Ec'; cbn [bind]; auto.
    destruct (mk_approx_nnum R c (pmin1 c') Nc (pmin1_nnum c' Nc') (pmin1_le1 c' Nc'))
      as [(v & w & E' & _)|E']; rewrite E'; eauto.
  - destruct (pmul_pos _ o q (nnum_tiof R _ V) Eo Hq) as [(c & Ec & Nc)|Ec]; rewrite Ec; cbn [bind]; auto.
    destruct (mk_zcdp_nnum R c Nc) as [(v & Ev & _)|Ev]; rewrite Ev; eauto.
Qed.

Lemma tiof_le1 d : xle (XFin 0) d -> xle d (XFin 1) -> le1 (to_int_or_float R d).
Proof.
  intros Hd L. destruct (nonneg_cases _ Hd) as [(q & -> & Hq)| ->]; simpl in L; [|tauto].
  simpl. destruct (is_integer q) eqn:E; simpl.
  - eexists; split; [reflexivity|]. simpl. unfold z2q. rewrite (is_integer_spec _ E). assumption.
  - eexists; split; [reflexivity|].
    eapply xle_trans; [apply rnd_mono; exact L|]. apply xeq_xle, rnd_one.
Qed.

Lemma bdiv_total b o q : valid b -> pynum_x o = Some (XFin q) -> 0 < q ->
  (match b with Approx _ _ => 1 <= q | _ => True end) ->
  (exists c, bdiv R b o = Ok c) \/ bdiv R b o = Err OverflowError.
Proof.
  intros V Eo Hq K. unfold bdiv.
  destruct (check_divisor_fin o q Eo Hq) as [E|E]; rewrite E; cbn [bind]; auto.
  destruct b as [e|e d|r]; cbn [valid] in V.
  - destruct (pdiv_pos _ o q (nnum_tiof R _ V) Eo Hq) as [(c & Ec & Nc & _)|Ec]; rewrite Ec; cbn [bind]; auto.
    destruct (mk_pure_nnum R c Nc) as [(v & Ev & _)|Ev]; rewrite Ev; eauto.
  - destruct V as (A & B & C).
    destruct (pdiv_pos _ o q (nnum_tiof R _ A) Eo Hq) as [(c & Ec & Nc & _)|Ec]; rewrite Ec; cbn [bind]; auto.
    destruct (pdiv_pos _ o q (nnum_tiof R _ B) Eo Hq) as [(c' & Ec' & Nc' & L)|Ec']; rewrite Ec'; cbn [bind]; auto.
    destruct (mk_approx_nnum R c c' Nc Nc' (L (tiof_le1 d B C) K))
      as [(v & w & E' & _)|E']; rewrite E'; eauto.
  - destruct (pdiv_pos _ o q (nnum_tiof R _ V) Eo Hq) as [(c & Ec & Nc & _)|Ec]; rewrite Ec; cbn [bind]; auto.
    destruct (mk_zcdp_nnum R c Nc) as [(v & Ev & _)|Ev]; rewrite Ev; eauto.
Qed.

End Scale.

(** ** Exact arithmetic is one admissible rounding *)

Definition exact_rounding : rounding.
Proof.
  refine {| rnd := XFin; ffrom := fun q => q |}; simpl; intros; auto; try lra.
Defined.

(** With exact arithmetic + and * are addition and multiplication, delta being capped at 1. *)
Definition qmin1 (x : Q) : Q := if Qlt_le_dec 1 x then 1 else x.

Definition budget_val (b : budget) (v : list Q) : Prop :=
  match b, v with
  | Pure (XFin x), [y] | Zcdp (XFin x), [y] => x == y
  | Approx (XFin x) (XFin d), [y; d'] => x == y /\ d == d'
  | _, _ => False
  end.

Lemma tiof_exact q : exists v, pynum_x (to_int_or_float exact_rounding (XFin q)) = Some (XFin v) /\ v == q.
Proof.
  simpl. destruct (is_integer q) eqn:E; simpl.
  - eexists; split; [reflexivity|]. apply is_integer_spec; assumption.
  - eexists; split; [reflexivity|]. reflexivity.
Qed.

Lemma to_float_exact n v : pynum_x n = Some (XFin v) -> to_float exact_rounding n = Ok (FX (XFin v)).
Proof. destruct n as [z|[x|]]; simpl; intros H; inversion H; reflexivity. Qed.

Lemma padd_exact a b x y : pynum_x a = Some (XFin x) -> pynum_x b = Some (XFin y) ->
  exists c v, padd exact_rounding a b = Ok c /\ pynum_x c = Some (XFin v) /\ v == x + y.
Proof.
  intros Ha Hb. pose proof (to_float_exact _ _ Ha) as Fa. pose proof (to_float_exact _ _ Hb) as Fb.
  assert (G : exists c v, (let* x := to_float exact_rounding a in let* y := to_float exact_rounding b in
     Ok (PFlt (fadd exact_rounding x y))) = Ok c /\ pynum_x c = Some (XFin v) /\ v == x + y).
  { rewrite Fa, Fb. simpl. eexists _, _; split; [reflexivity|split; [reflexivity|reflexivity]]. }
  destruct a as [za|fa]; destruct b as [zb|fb]; try exact G.
  simpl in *. inversion Ha; inversion Hb; subst. eexists _, _; split; [reflexivity|].
  split; [reflexivity|]. unfold z2q. rewrite inject_Z_plus. reflexivity.
Qed.

Lemma pmul_exact a b x y : pynum_x a = Some (XFin x) -> pynum_x b = Some (XFin y) ->
  exists c v, pmul exact_rounding a b = Ok c /\ pynum_x c = Some (XFin v) /\ v == x * y.
Proof.
  intros Ha Hb. pose proof (to_float_exact _ _ Ha) as Fa. pose proof (to_float_exact _ _ Hb) as Fb.
  assert (G : exists c v, (let* x := to_float exact_rounding a in let* y := to_float exact_rounding b in
     Ok (PFlt (fmul exact_rounding x y))) = Ok c /\ pynum_x c = Some (XFin v) /\ v == x * y).
  { rewrite Fa, Fb. simpl. eexists _, _; split; [reflexivity|split; [reflexivity|reflexivity]]. }
  destruct a as [za|fa]; destruct b as [zb|fb]; try exact G.
  simpl in *. inversion Ha; inversion Hb; subst. eexists _, _; split; [reflexivity|].
  split; [reflexivity|]. unfold z2q. rewrite inject_Z_mult. reflexivity.
Qed.

Lemma pdiv_exact a b x y : pynum_x a = Some (XFin x) -> pynum_x b = Some (XFin y) -> 0 < y ->
  exists c v, pdiv exact_rounding a b = Ok c /\ pynum_x c = Some (XFin v) /\ v == x / y.
Proof.
  intros Ha Hb Hy. pose proof (to_float_exact _ _ Ha) as Fa. pose proof (to_float_exact _ _ Hb) as Fb.
  assert (Z : Qeq_bool y 0 = false).
  { apply not_true_is_false. rewrite Qeq_bool_iff. lra. }
  assert (G : exists c v, (let* x := to_float exact_rounding a in let* y := to_float exact_rounding b in
     let* r := fdiv exact_rounding x y in Ok (PFlt r)) = Ok c /\ pynum_x c = Some (XFin v) /\ v == x / y).
  { rewrite Fa, Fb. cbn [bind fdiv]. rewrite Z. cbn [bind].
    eexists _, _; split; [reflexivity|split; [reflexivity|reflexivity]]. }
  destruct a as [za|fa]; destruct b as [zb|fb]; try exact G.
  simpl in *. inversion Ha; inversion Hb; subst.
  assert (Z.eqb zb 0 = false) as ->.
  { apply Z.eqb_neq. intros ->. exact (Qlt_irrefl 0 Hy). }
  eexists _, _; split; [reflexivity|]. split; [reflexivity|]. unfold z2q. reflexivity.
Qed.

Lemma psub_exact a b x y : pynum_x a = Some (XFin x) -> pynum_x b = Some (XFin y) ->
  exists c v, psub exact_rounding a b = Ok c /\ pynum_x c = Some (XFin v) /\ v == x - y.
Proof.
  intros Ha Hb. pose proof (to_float_exact _ _ Ha) as Fa. pose proof (to_float_exact _ _ Hb) as Fb.
  assert (G : exists c v, (let* x := to_float exact_rounding a in let* y := to_float exact_rounding b in
     Ok (PFlt (fsub exact_rounding x y))) = Ok c /\ pynum_x c = Some (XFin v) /\ v == x - y).
  { rewrite Fa, Fb. simpl. eexists _, _; split; [reflexivity|split; [reflexivity|reflexivity]]. }
  destruct a as [za|fa]; destruct b as [zb|fb]; try exact G.
  simpl in *. inversion Ha; inversion Hb; subst. eexists _, _; split; [reflexivity|].
  split; [reflexivity|]. unfold z2q, Z.sub. rewrite inject_Z_plus, inject_Z_opp. reflexivity.
Qed.

Lemma mk_pure_exact n v : pynum_x n = Some (XFin v) -> 0 <= v ->
  exists w, mk_pure exact_rounding (ANum n) = Ok (Pure (XFin w)) /\ w == v.
Proof.
  intros E Hv.
  assert (F : isnan exact_rounding n = Ok false).
  { unfold isnan. rewrite (to_float_exact _ _ E). reflexivity. }
  assert (P : plt n (PInt 0) = false).
  { apply plt0_nnum. exists (XFin v); auto. }
  unfold mk_pure. unfold arg_isnan, arg_lt_int. rewrite F. cbn [bind raise_if]. rewrite P.
  destruct n as [z|[x|]]; simpl in *; inversion E; subst; eexists; split; reflexivity.
Qed.

Lemma mk_zcdp_exact n v : pynum_x n = Some (XFin v) -> 0 <= v ->
  exists w, mk_zcdp exact_rounding (ANum n) = Ok (Zcdp (XFin w)) /\ w == v.
Proof.
  intros E Hv.
  assert (F : isnan exact_rounding n = Ok false).
  { unfold isnan. rewrite (to_float_exact _ _ E). reflexivity. }
  assert (P : plt n (PInt 0) = false).
  { apply plt0_nnum. exists (XFin v); auto. }
  unfold mk_zcdp. unfold arg_isnan, arg_lt_int. rewrite F. cbn [bind raise_if]. rewrite P.
  destruct n as [z|[x|]]; simpl in *; inversion E; subst; eexists; split; reflexivity.
Qed.

Lemma mk_approx_exact n v m u : pynum_x n = Some (XFin v) -> 0 <= v ->
  pynum_x m = Some (XFin u) -> 0 <= u -> u <= 1 ->
  exists w d, mk_approx exact_rounding (ANum n) (ANum m) = Ok (Approx (XFin w) (XFin d)) /\ w == v /\ d == u.
Proof.
  intros E Hv E' Hu Hu1.
  assert (F : isnan exact_rounding n = Ok false).
  { unfold isnan. rewrite (to_float_exact _ _ E). reflexivity. }
  assert (F' : isnan exact_rounding m = Ok false).
  { unfold isnan. rewrite (to_float_exact _ _ E'). reflexivity. }
  assert (P : plt n (PInt 0) = false).
  { apply plt0_nnum. exists (XFin v); auto. }
  assert (P' : plt m (PInt 0) = false).
  { apply plt0_nnum. exists (XFin u); auto. }
  assert (P1 : plt (PInt 1) m = false).
  { unfold plt. rewrite E'. simpl. apply xltb_false. exact Hu1. }
  unfold mk_approx. unfold arg_isnan, arg_lt_int, arg_gt_int. rewrite F. cbn [bind raise_if].
  rewrite F', P, P', P1. cbn [bind raise_if orb].
  destruct n as [z|[x|]]; simpl in E; inversion E; subst;
  destruct m as [z'|[x'|]]; simpl in E'; inversion E'; subst;
  eexists _, _; (split; [reflexivity|]); split; reflexivity.
Qed.

Lemma pmin1_exact n v : pynum_x n = Some (XFin v) ->
  exists u, pynum_x (pmin1 n) = Some (XFin u) /\ u == qmin1 v.
Proof.
  intros E. unfold pmin1. unfold plt. rewrite E. simpl.
  unfold qmin1. destruct (xltb (XFin 1) (XFin v)) eqn:X.
  - apply xltb_iff in X. simpl in X. exists 1; split; [reflexivity|].
    destruct (Qlt_le_dec 1 v); lra.
  - apply xltb_false in X. simpl in X. exists v; split; [assumption|].
    destruct (Qlt_le_dec 1 v); lra.
Qed.

Definition fin_budget (b : budget) : Prop :=
  match b with
  | Pure (XFin _) | Zcdp (XFin _) => True
  | Approx (XFin _) (XFin d) => ~ d == 1
  | _ => False
  end.

Definition comps (b : budget) : list Q :=
  match b with
  | Pure (XFin x) | Zcdp (XFin x) => [x]
  | Approx (XFin x) (XFin d) => [x; d]
  | _ => []
  end.

(** component-wise sum, delta capped *)
Definition sum_spec (a b : budget) : list Q :=
  match comps a, comps b with
  | [x], [y] => [x + y]
  | [x; d], [y; d'] => [x + y; qmin1 (d + d')]
  | [x; d], [y] | [y], [x; d] => [x + y; d]
  | _, _ => []
  end.

Definition scale_spec (b : budget) (k : Q) : list Q :=
  match comps b with
  | [x] => [x * k]
  | [x; d] => [x * k; qmin1 (d * k)]
  | _ => []
  end.

Definition div_spec (b : budget) (k : Q) : list Q :=
  match comps b with
  | [x] => [x / k]
  | [x; d] => [x / k; d / k]
  | _ => []
  end.

Lemma qmin1_bounds x : 0 <= x -> 0 <= qmin1 x /\ qmin1 x <= 1.
Proof. unfold qmin1. destruct (Qlt_le_dec 1 x); lra. Qed.

Lemma qmin1_proper x y : x == y -> qmin1 x == qmin1 y.
Proof. unfold qmin1. intros H. destruct (Qlt_le_dec 1 x), (Qlt_le_dec 1 y); lra. Qed.

Lemma approx_add_exact e d e' d' : valid (Approx (XFin e) (XFin d)) -> valid (Approx (XFin e') (XFin d')) ->
  ~ d == 1 -> ~ d' == 1 ->
  exists c, approx_add exact_rounding (Approx (XFin e) (XFin d)) (Approx (XFin e') (XFin d')) = Ok c /\
    budget_val c [e + e'; qmin1 (d + d')].
Proof.
  intros (A & B & C) (A' & B' & C') N N'. simpl in A, B, C, A', B', C'. unfold approx_add.
  assert (is_infinite (Approx (XFin e) (XFin d)) = false) as ->.
  { apply is_infinite_false. simpl. intros [H|H]; [discriminate|auto]. }
  assert (is_infinite (Approx (XFin e') (XFin d')) = false) as ->.
  { apply is_infinite_false. simpl. intros [H|H]; [discriminate|auto]. }
  destruct (tiof_exact e) as (v1 & E1 & Q1). destruct (tiof_exact e') as (v2 & E2 & Q2).
  destruct (tiof_exact d) as (v3 & E3 & Q3). destruct (tiof_exact d') as (v4 & E4 & Q4).
  destruct (padd_exact _ _ _ _ E1 E2) as (c & v & Ec & Ev & Qv). rewrite Ec. cbn [bind].
  destruct (padd_exact _ _ _ _ E3 E4) as (c' & v' & Ec' & Ev' & Qv'). rewrite Ec'. cbn [bind].
  destruct (pmin1_exact _ _ Ev') as (u & Eu & Qu).
  assert (Qm : qmin1 v' == qmin1 (d + d')) by (apply qmin1_proper; lra).
  pose proof (qmin1_bounds (d + d')) as MB.
  destruct (mk_approx_exact c v (pmin1 c') u Ev ltac:(lra) Eu ltac:(lra) ltac:(lra)) as (w & x & E & W & X).
  rewrite E. eexists; split; [reflexivity|]. simpl. split; lra.
Qed.

Lemma badd_exact a b : valid a -> valid b -> fin_budget a -> fin_budget b -> compatible a b ->
  exists c, badd exact_rounding a b = Ok c /\ budget_val c (sum_spec a b).
Proof.
  intros Va Vb Fa Fb K.
  destruct a as [[x| |]|[x| |] [d| |]|[x| |]]; simpl in Fa; try tauto;
  destruct b as [[y| |]|[y| |] [d'| |]|[y| |]]; simpl in Fb; try tauto; simpl in K; try tauto.
  - cbn [badd]. simpl is_infinite. cbn [sum_spec comps].
    destruct (tiof_exact x) as (v1 & E1 & Q1). destruct (tiof_exact y) as (v2 & E2 & Q2).
    destruct (padd_exact _ _ _ _ E1 E2) as (c & v & Ec & Ev & Qv). rewrite Ec. cbn [bind].
    simpl in Va, Vb.
    destruct (mk_pure_exact c v Ev ltac:(lra)) as (w & E & W). rewrite E.
    eexists; split; [reflexivity|]. simpl. lra.
  - cbn [badd]. destruct (tiof_exact x) as (v1 & E1 & Q1). simpl in Va, Vb.
    destruct (mk_approx_exact _ v1 (PInt 0) 0 E1 ltac:(lra) eq_refl ltac:(lra) ltac:(lra)) as (w & z & E & W & Z0).
    rewrite E. cbn [bind].
    destruct (approx_add_exact w z y d') as (c & Ec & V).
    + simpl; repeat split; lra.
    + exact Vb.
    + lra.
    + exact Fb.
    + rewrite Ec. eexists; split; [reflexivity|]. unfold sum_spec; cbn [comps].
      destruct c as [| [p| |] [q| |] |]; simpl in *; try tauto.
      assert (qmin1 (z + d') == d').
      { unfold qmin1. destruct (Qlt_le_dec 1 (z + d')); lra. }
      lra.
  - cbn [badd]. destruct (tiof_exact y) as (v1 & E1 & Q1). simpl in Va, Vb.
    destruct (mk_approx_exact _ v1 (PInt 0) 0 E1 ltac:(lra) eq_refl ltac:(lra) ltac:(lra)) as (w & z & E & W & Z0).
    rewrite E. cbn [bind].
    destruct (approx_add_exact x d w z) as (c & Ec & V).
    + exact Va.
    + simpl; repeat split; lra.
    + exact Fa.
    + lra.
    + rewrite Ec. eexists; split; [reflexivity|]. unfold sum_spec; cbn [comps].
      destruct c as [| [p| |] [q| |] |]; simpl in *; try tauto.
      assert (qmin1 (d + z) == d).
      { unfold qmin1. destruct (Qlt_le_dec 1 (d + z)); lra. }
      lra.
  - cbn [badd]. apply (approx_add_exact x d y d'); assumption.
  - cbn [badd]. simpl is_infinite. cbn [sum_spec comps].
    destruct (tiof_exact x) as (v1 & E1 & Q1). destruct (tiof_exact y) as (v2 & E2 & Q2).
    destruct (padd_exact _ _ _ _ E1 E2) as (c & v & Ec & Ev & Qv). rewrite Ec. cbn [bind].
    simpl in Va, Vb.
    destruct (mk_zcdp_exact c v Ev ltac:(lra)) as (w & E & W). rewrite E.
    eexists; split; [reflexivity|]. simpl. lra.
Qed.

Definition fin_vals (b : budget) : Prop :=
  match b with
  | Pure (XFin _) | Zcdp (XFin _) | Approx (XFin _) (XFin _) => True
  | _ => False
  end.

Lemma check_factor_exact o q : pynum_x o = Some (XFin q) -> 0 <= q -> check_factor exact_rounding o = Ok tt.
Proof.
  intros E H. destruct (check_factor_fin exact_rounding o q E H) as [X|X]; [exact X|].
  unfold check_factor, isnan, isinf in X. rewrite (to_float_exact _ _ E) in X.
  destruct (plt o (PInt 0)); simpl in X; discriminate.
Qed.

Lemma check_divisor_exact o q : pynum_x o = Some (XFin q) -> 0 < q -> check_divisor exact_rounding o = Ok tt.
Proof.
  intros E H. destruct (check_divisor_fin exact_rounding o q E H) as [X|X]; [exact X|].
  unfold check_divisor, isnan, isinf in X. rewrite (to_float_exact _ _ E) in X.
  destruct (ple o (PInt 0)); simpl in X; discriminate.
Qed.

Lemma bmul_exact b o q : valid b -> fin_vals b -> pynum_x o = Some (XFin q) -> 0 <= q ->
  exists c, bmul exact_rounding b o = Ok c /\ budget_val c (scale_spec b q).
Proof.
  intros V F Eo Hq. unfold bmul. rewrite (check_factor_exact o q Eo Hq). cbn [bind].
  destruct b as [[x| |]|[x| |] [d| |]|[x| |]]; simpl in F; try tauto; simpl in V.
  - destruct (tiof_exact x) as (v1 & E1 & Q1).
    destruct (pmul_exact _ _ _ _ E1 Eo) as (c & v & Ec & Ev & Qv). rewrite Ec. cbn [bind].
    assert (QQ : v == x * q) by (rewrite Qv, Q1; reflexivity).
    assert (0 <= x * q) by (apply Qmult_le_0_compat; lra).
    destruct (mk_pure_exact c v Ev ltac:(lra)) as (w & E & W). rewrite E.
    eexists; split; [reflexivity|]. simpl. lra.
  - destruct V as (A & B & C).
    destruct (tiof_exact x) as (v1 & E1 & Q1). destruct (tiof_exact d) as (v2 & E2 & Q2).
    destruct (pmul_exact _ _ _ _ E1 Eo) as (c & v & Ec & Ev & Qv). rewrite Ec. cbn [bind].
    destruct (pmul_exact _ _ _ _ E2 Eo) as (c' & v' & Ec' & Ev' & Qv'). rewrite Ec'. cbn [bind].
    assert (QQ : v == x * q) by (rewrite Qv, Q1; reflexivity).
    assert (QQ' : v' == d * q) by (rewrite Qv', Q2; reflexivity).
    assert (0 <= x * q) by (apply Qmult_le_0_compat; lra).
    assert (H' : 0 <= d * q) by (apply Qmult_le_0_compat; lra).
    destruct (pmin1_exact _ _ Ev') as (u & Eu & Qu).
    pose proof (qmin1_proper _ _ QQ') as QP. pose proof (qmin1_bounds _ H') as QB.
    destruct (mk_approx_exact c v (pmin1 c') u Ev ltac:(lra) Eu ltac:(lra) ltac:(lra)) as (w & w' & E & W & W').
    rewrite E. eexists; split; [reflexivity|]. simpl. split; lra.
  - destruct (tiof_exact x) as (v1 & E1 & Q1).
    destruct (pmul_exact _ _ _ _ E1 Eo) as (c & v & Ec & Ev & Qv). rewrite Ec. cbn [bind].
    assert (QQ : v == x * q) by (rewrite Qv, Q1; reflexivity).
    assert (0 <= x * q) by (apply Qmult_le_0_compat; lra).
    destruct (mk_zcdp_exact c v Ev ltac:(lra)) as (w & E & W). rewrite E.
    eexists; split; [reflexivity|]. simpl. lra.
Qed.

Lemma bdiv_exact b o q : valid b -> fin_vals b -> pynum_x o = Some (XFin q) -> 0 < q ->
  (match comps b with [_; d] => d <= q | _ => True end) ->
  exists c, bdiv exact_rounding b o = Ok c /\ budget_val c (div_spec b q).
Proof.
  intros V F Eo Hq K. unfold bdiv. rewrite (check_divisor_exact o q Eo Hq). cbn [bind].
  assert (DIV : forall x p, 0 <= x -> 0 < p -> 0 <= x / p).
  { intros x p Hx Hp. apply Qle_shift_div_l; [assumption|]. rewrite Qmult_0_l. assumption. }
  destruct b as [[x| |]|[x| |] [d| |]|[x| |]]; simpl in F; try tauto; simpl in V.
  - destruct (tiof_exact x) as (v1 & E1 & Q1).
    destruct (pdiv_exact _ _ _ _ E1 Eo Hq) as (c & v & Ec & Ev & Qv). rewrite Ec. cbn [bind].
    assert (QQ : v == x / q) by (rewrite Qv, Q1; reflexivity).
    pose proof (DIV x q V Hq).
    destruct (mk_pure_exact c v Ev ltac:(lra)) as (w & E & W). rewrite E.
    eexists; split; [reflexivity|]. simpl. lra.
  - destruct V as (A & B & C). simpl in K.
    destruct (tiof_exact x) as (v1 & E1 & Q1). destruct (tiof_exact d) as (v2 & E2 & Q2).
    destruct (pdiv_exact _ _ _ _ E1 Eo Hq) as (c & v & Ec & Ev & Qv). rewrite Ec. cbn [bind].
    destruct (pdiv_exact _ _ _ _ E2 Eo Hq) as (c' & v' & Ec' & Ev' & Qv'). rewrite Ec'. cbn [bind].
    assert (QQ : v == x / q) by (rewrite Qv, Q1; reflexivity).
    assert (QQ' : v' == d / q) by (rewrite Qv', Q2; reflexivity).
    pose proof (DIV x q A Hq). pose proof (DIV d q B Hq).
    assert (d / q <= 1) by (apply Qle_shift_div_r; lra).
    destruct (mk_approx_exact c v c' v' Ev ltac:(lra) Ev' ltac:(lra) ltac:(lra)) as (w & w' & E & W & W').
    rewrite E. eexists; split; [reflexivity|]. simpl. split; lra.
  - destruct (tiof_exact x) as (v1 & E1 & Q1).
    destruct (pdiv_exact _ _ _ _ E1 Eo Hq) as (c & v & Ec & Ev & Qv). rewrite Ec. cbn [bind].
    assert (QQ : v == x / q) by (rewrite Qv, Q1; reflexivity).
    pose proof (DIV x q V Hq).
    destruct (mk_zcdp_exact c v Ev ltac:(lra)) as (w & E & W). rewrite E.
    eexists; split; [reflexivity|]. simpl. lra.
Qed.
