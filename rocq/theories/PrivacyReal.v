(** Pure, approximate and zero-concentrated differential privacy of finite distributions with
    real weights have the laws of PrivacySpec.v.  The axioms of the standard library's reals are used here and in
    Props_PrivacyReal.v only. *)
From Coq Require Import String Bool Arith ZArith QArith Qcanon Reals Qreals Lra Psatz Permutation List.
From Verif Require Import Prelude Budget BudgetProofs Value Rows Session SessionSpec SessionMoney Measure Transform PrivacySpec.
Import ListNotations.
Local Open Scope R_scope.

Fixpoint expect {A} (g : A -> R) (d : list (A * R)) : R :=
  match d with [] => 0 | x :: d => snd x * g (fst x) + expect g d end.
(** Weights that are not negative and add up to 1. *)
Definition weights {A} (d : list (A * R)) : Prop := (forall x, In x d -> 0 <= snd x) /\ expect (fun _ => 1) d = 1.
Definition distribution (A : Type) : Type := {d : list (A * R) | weights d}.
Definition mean {A} (g : A -> R) (d : distribution A) : R := expect g (proj1_sig d).
(** The probability of an event. *)
Definition prob {A} (d : distribution A) (S : A -> bool) : R := mean (fun a => if S a then 1 else 0) d.

Section Expect.
Context {A : Type}.
Implicit Types (d : list (A * R)) (g h : A -> R).
Lemma expect_mono g h d : (forall x, In x d -> 0 <= snd x) -> (forall a, g a <= h a) -> expect g d <= expect h d.
Proof.
  intros P L. induction d as [|x d IH]; cbn [expect]; [lra|].
  assert (expect g d <= expect h d) by (apply IH; intros y I; apply P; right; exact I). pose proof (P x (or_introl eq_refl)). pose proof (L (fst x)). nra.
Qed.
Lemma expect_scale c g d : expect (fun a => c * g a) d = c * expect g d.
Proof. induction d as [|x d IH]; cbn [expect]; [lra|]. rewrite IH. ring. Qed.
Lemma expect_shift c g d : expect (fun a => g a + c) d = expect g d + c * expect (fun _ => 1) d.
Proof. induction d as [|x d IH]; cbn [expect]; [lra|]. rewrite IH. ring. Qed.
Lemma expect_app g d d' : expect g (d ++ d') = expect g d + expect g d'.
Proof. induction d as [|x d IH]; cbn [expect app]; [lra|]. rewrite IH. ring. Qed.
Lemma expect_ext g h d : (forall a, g a = h a) -> expect g d = expect h d.
Proof. intros H. induction d as [|x d IH]; cbn [expect]; [lra|]. now rewrite IH, H. Qed.
End Expect.

Definition sure {A} (a : A) : distribution A.
Proof. exists [(a, 1)]. split; [intros x [<-|[]]; cbn; lra|cbn; lra]. Defined.
Definition bind_list {A B} (d : list (A * R)) (f : A -> list (B * R)) : list (B * R) :=
  flat_map (fun x => map (fun y => (fst y, snd x * snd y)) (f (fst x))) d.
Lemma expect_bind {A B} (d : list (A * R)) (f : A -> list (B * R)) g : expect g (bind_list d f) = expect (fun a => expect g (f a)) d.
Proof.
  induction d as [|x d IH]; cbn [expect]; [reflexivity|]. unfold bind_list in *. cbn [flat_map]. rewrite expect_app, IH.
  assert (M : forall l : list (B * R), expect g (map (fun y => (fst y, snd x * snd y)) l) = snd x * expect g l).
  { clear. intros l. induction l as [|y l IH]; cbn [expect map fst snd]; [ring|]. rewrite IH. ring. }
  rewrite M. reflexivity.
Qed.
Lemma bind_weights {A B} (d : distribution A) (f : A -> distribution B) : weights (bind_list (proj1_sig d) (fun a => proj1_sig (f a))).
Proof.
  destruct d as (d & P & T). cbn [proj1_sig]. split.
  - intros x I. unfold bind_list in I. apply in_flat_map in I as (y & Y & I). apply in_map_iff in I as (z & <- & Z). cbn [snd]. pose proof (P y Y). pose proof (proj1 (proj2_sig (f (fst y))) z Z). nra.
  - rewrite expect_bind. transitivity (expect (fun _ : A => 1) d); [apply expect_ext; intros a; apply (proj2_sig (f a))|exact T].
Qed.
Definition then_ {A B} (d : distribution A) (f : A -> distribution B) : distribution B := exist _ _ (bind_weights d f).
Lemma mean_then {A B} (d : distribution A) (f : A -> distribution B) g : mean g (then_ d f) = mean (fun a => mean g (f a)) d.
Proof. apply expect_bind. Qed.
Lemma mean_mono {A} (g h : A -> R) (d : distribution A) : (forall a, g a <= h a) -> mean g d <= mean h d.
Proof. apply expect_mono, (proj2_sig d). Qed.
Lemma mean_affine {A} c dl (g : A -> R) (d : distribution A) : mean (fun a => c * g a + dl) d = c * mean g d + dl.
Proof. unfold mean. rewrite expect_shift, expect_scale. destruct d as (d & P & T). cbn [proj1_sig]. rewrite T. ring. Qed.

Definition test {A} (g : A -> R) : Prop := forall a, 0 <= g a <= 1.
Lemma mean_const {A} c (d : distribution A) : mean (fun _ => c) d = c.
Proof. pose proof (mean_affine 0 c (fun _ => 0) d) as H. unfold mean in *. rewrite (expect_ext _ (fun _ => 0 * 0 + c)) by (intros; ring). rewrite H. ring. Qed.
Lemma mean_test {A} (g : A -> R) d : test g -> 0 <= mean g d <= 1.
Proof. intros T. split; [rewrite <- (mean_const 0 d)|rewrite <- (mean_const 1 d)]; apply mean_mono; intros a; apply T. Qed.

(** Differential privacy: every event, and more generally every test with values between 0
    and 1, is at most [exp e] times as likely, up to [dl]. *)
Definition private (e dl : R) {A} (d d' : distribution A) : Prop := forall g, test g -> mean g d <= exp e * mean g d' + dl.
Lemma private_events e dl A (d d' : distribution A) S : private e dl d d' -> prob d S <= exp e * prob d' S + dl.
Proof. intros H. apply H. intros a. destruct (S a); lra. Qed.

Lemma exp_ge_1 e : 0 <= e -> 1 <= exp e.
Proof. intros H. rewrite <- exp_0. destruct H as [H|<-]; [left; apply exp_increasing, H|right; reflexivity]. Qed.
Lemma exp_mono e e' : e <= e' -> exp e <= exp e'.
Proof. intros [H|<-]; [left; apply exp_increasing, H|right; reflexivity]. Qed.
Lemma private_same e dl A (d : distribution A) : 0 <= e -> 0 <= dl -> private e dl d d.
Proof. intros P Q g T. destruct (mean_test g d T). pose proof (exp_ge_1 e P). nra. Qed.
Lemma private_more e dl e' dl' A (d d' : distribution A) : e <= e' -> dl <= dl' -> private e dl d d' -> private e' dl' d d'.
Proof. intros P Q H g T. specialize (H g T). destruct (mean_test g d' T). pose proof (exp_mono e e' P). nra. Qed.
Lemma private_after e dl A B (d : distribution A) (f f' : A -> distribution B) : (forall a, private e dl (f a) (f' a)) -> private e dl (then_ d f) (then_ d f').
Proof. intros H g T. rewrite !mean_then, <- mean_affine. apply mean_mono. intros a. exact (H a g T). Qed.
Lemma private_then e dl e' dl' A B (d d' : distribution A) (f f' : A -> distribution B) :
  private e dl d d' -> (forall a, private e' dl' (f a) (f' a)) -> private (e + e') (dl + dl') (then_ d f) (then_ d' f').
Proof.
  intros H K g T. rewrite !mean_then. set (h := fun a => Rmin 1 (exp e' * mean g (f' a))).
  assert (TH : test h).
  { intros a. unfold h. destruct (mean_test g (f' a) T). pose proof (exp_pos e'). split; [apply Rmin_glb; nra|apply Rmin_l]. }
  assert (A1 : mean (fun a => mean g (f a)) d <= 1 * mean h d + Rmax 0 dl').
  { rewrite <- mean_affine. apply mean_mono. intros a. pose proof (K a g T) as KA. destruct (mean_test g (f a) T). pose proof (Rmax_l 0 dl'). pose proof (Rmax_r 0 dl'). unfold h, Rmin. destruct (Rle_dec 1 (exp e' * mean g (f' a))); lra. }
  assert (A2 : mean h d <= exp e * mean h d' + dl) by (apply H, TH).
  assert (A3 : mean h d' <= exp e' * mean (fun a => mean g (f' a)) d') by (rewrite <- (Rplus_0_r (exp e' * _)), <- mean_affine; apply mean_mono; intros a; unfold h; rewrite Rplus_0_r; apply Rmin_r).
  rewrite exp_plus. pose proof (exp_pos e). unfold Rmax in A1. destruct (Rle_dec 0 dl') as [P|N]; [nra|].
  (* a negative delta *)
  exfalso. apply N. destruct d as ([|(a, w) d] & P & W); [cbn in W; lra|]. pose proof (K a (fun _ => 0) ltac:(intros b; lra)) as Z. rewrite !mean_const in Z. lra.
Qed.

(** ** Zero-concentrated differential privacy *)
(** Powers of numbers that are not negative. *)
Definition pw (x p : R) : R := if Req_EM_T x 0 then 0 else Rpower x p.
Lemma pw_0 p : pw 0 p = 0. Proof. unfold pw. destruct (Req_EM_T 0 0); [reflexivity|lra]. Qed.
Lemma pw_pos x p : 0 < x -> pw x p = Rpower x p. Proof. intros H. unfold pw. destruct (Req_EM_T x 0); [lra|reflexivity]. Qed.
Lemma Rpower_pos x p : 0 < Rpower x p. Proof. apply exp_pos. Qed.
Lemma pw_nonneg x p : 0 <= pw x p. Proof. unfold pw. destruct (Req_EM_T x 0); [lra|]. left. apply Rpower_pos. Qed.
Lemma pw_1 x : 0 <= x -> pw x 1 = x. Proof. intros [H|<-]; [rewrite pw_pos by exact H; apply Rpower_1, H|apply pw_0]. Qed.
Lemma pw_pw x p q : 0 <= x -> pw (pw x p) q = pw x (p * q).
Proof. intros [H|<-]; [|rewrite !pw_0; reflexivity]. rewrite (pw_pos x p H), (pw_pos _ q (Rpower_pos x p)), Rpower_mult, pw_pos by exact H. reflexivity. Qed.
Lemma pw_mult x y p : 0 <= x -> 0 <= y -> pw (x * y) p = pw x p * pw y p.
Proof.
  intros [H|<-] [K|<-]; rewrite ?Rmult_0_l, ?Rmult_0_r, ?pw_0, ?Rmult_0_l, ?Rmult_0_r; try reflexivity.
  rewrite !pw_pos by (try assumption; nra). symmetry. apply Rpower_mult_distr; assumption.
Qed.
Lemma pw_mono x y p : 0 <= p -> 0 <= x -> x <= y -> pw x p <= pw y p.
Proof.
  intros P [H|<-] L; [|rewrite pw_0; apply pw_nonneg]. rewrite !pw_pos by lra. unfold Rpower. apply exp_mono. apply Rmult_le_compat_l; [exact P|].
  destruct L as [L|<-]; [left; apply ln_increasing; assumption|right; reflexivity].
Qed.
(** Bernoulli's inequality. *)
Lemma exp_tangent x y : exp y * (1 + (x - y)) <= exp x.
Proof. replace x with (y + (x - y)) at 2 by ring. rewrite exp_plus. apply Rmult_le_compat_l; [left; apply exp_pos|]. pose proof (exp_ineq1_le (x - y)). lra. Qed.
Lemma bernoulli u p : 0 <= u -> 1 < p -> 1 + p * (u - 1) <= pw u p.
Proof.
  intros [U|<-] P; [|rewrite pw_0; nra]. rewrite pw_pos by exact U. unfold Rpower. set (s := ln u). assert (UE : u = exp s) by (unfold s; rewrite exp_ln by exact U; reflexivity). rewrite UE.
  pose proof (exp_tangent (p * s) s) as T1. pose proof (exp_tangent 0 s) as T2. rewrite exp_0 in T2.
  assert (T3 : (p - 1) * (exp s * (1 + (0 - s))) <= (p - 1) * 1) by (apply Rmult_le_compat_l; lra). nra.
Qed.
Lemma jensen {A} (g : A -> R) p (d : distribution A) : 1 < p -> (forall a, 0 <= g a) -> mean g d <= pw (mean (fun a => pw (g a) p) d) (1 / p).
Proof.
  intros P G. assert (M : 0 <= mean g d) by (rewrite <- (mean_const 0 d); apply mean_mono; exact G). destruct M as [M|<-]; [|apply pw_nonneg]. set (m := mean g d) in *.
  assert (L : pw m p <= mean (fun a => pw (g a) p) d).
  { assert (X : mean (fun a => (pw m p * p / m) * g a + pw m p * (1 - p)) d <= mean (fun a => pw (g a) p) d).
    { apply mean_mono. intros a. assert (U : 0 <= g a / m) by (apply Rmult_le_pos; [apply G|left; apply Rinv_0_lt_compat, M]).
      pose proof (bernoulli (g a / m) p U P) as B. assert (E : pw (g a) p = pw m p * pw (g a / m) p) by (rewrite <- pw_mult by (try lra; exact U); f_equal; field; lra).
      rewrite E. pose proof (pw_nonneg m p) as N. apply (Rmult_le_compat_l _ _ _ N) in B. apply Rle_trans with (2 := B). right. field. lra. }
    rewrite mean_affine in X. fold m in X. apply Rle_trans with (2 := X). right. field. lra. }
  apply (pw_mono _ _ (1 / p)) in L; [|unfold Rdiv; rewrite Rmult_1_l; left; apply Rinv_0_lt_compat; lra|apply pw_nonneg].
  rewrite pw_pw in L by lra. replace (p * (1 / p)) with 1 in L by (field; lra). rewrite pw_1 in L by lra. exact L.
Qed.
(** For every order [al], the expectation of a function that is not negative is bounded by its
    norm: by duality of norms this says that the Renyi divergence of order [al] is at most
    [al * rho] (see [concentrated_renyi]). *)
Definition concentrated (rho : R) {A} (d d' : distribution A) : Prop := forall al g, 1 < al -> (forall a, 0 <= g a) ->
  mean g d <= exp ((al - 1) * rho) * pw (mean (fun a => pw (g a) (al / (al - 1))) d') ((al - 1) / al).
Lemma dual_order al : 1 < al -> 1 < al / (al - 1) /\ (al - 1) / al = 1 / (al / (al - 1)).
Proof.
  intros H. split; [|field; lra]. assert (E : al / (al - 1) = 1 + / (al - 1)) by (field; lra). rewrite E. assert (0 < / (al - 1)) by (apply Rinv_0_lt_compat; lra). lra.
Qed.
Lemma concentrated_same rho A (d : distribution A) : 0 <= rho -> concentrated rho d d.
Proof.
  intros P al g H G. destruct (dual_order al H) as (D & ->). pose proof (jensen g _ d D G) as J. pose proof (exp_ge_1 ((al - 1) * rho) ltac:(nra)) as X.
  pose proof (pw_nonneg (mean (fun a => pw (g a) (al / (al - 1))) d) (1 / (al / (al - 1)))). nra.
Qed.
Lemma concentrated_more rho rho' A (d d' : distribution A) : rho <= rho' -> concentrated rho d d' -> concentrated rho' d d'.
Proof.
  intros L H al g X G. eapply Rle_trans; [apply (H al g X G)|]. apply Rmult_le_compat_r; [apply pw_nonneg|]. apply exp_mono. nra.
Qed.
Lemma concentrated_then rho rho' A B (d d' : distribution A) (f f' : A -> distribution B) :
  concentrated rho d d' -> (forall a, concentrated rho' (f a) (f' a)) -> concentrated (rho + rho') (then_ d f) (then_ d' f').
Proof.
  intros H K al g X G. rewrite !mean_then. destruct (dual_order al X) as (D & E).
  set (h := fun a => exp ((al - 1) * rho') * pw (mean (fun b => pw (g b) (al / (al - 1))) (f' a)) ((al - 1) / al)).
  assert (HP : forall a, 0 <= h a) by (intros a; apply Rmult_le_pos; [left; apply exp_pos|apply pw_nonneg]).
  eapply Rle_trans; [apply (mean_mono _ h d); intros a; apply (K a al g X G)|]. eapply Rle_trans; [apply (H al h X HP)|].
  rewrite Rmult_plus_distr_l, exp_plus, Rmult_assoc. apply Rmult_le_compat_l; [left; apply exp_pos|]. right.
  assert (EQ : mean (fun a => pw (h a) (al / (al - 1))) d' = pw (exp ((al - 1) * rho')) (al / (al - 1)) * mean (fun a => mean (fun b => pw (g b) (al / (al - 1))) (f' a)) d').
  { set (k := fun a => mean (fun b => pw (g b) (al / (al - 1))) (f' a)). unfold mean. rewrite <- expect_scale. apply expect_ext. intros a. unfold h, k. rewrite pw_mult by (try (left; apply exp_pos); apply pw_nonneg). f_equal.
    assert (N : 0 <= mean (fun b => pw (g b) (al / (al - 1))) (f' a)) by (rewrite <- (mean_const 0 (f' a)); apply mean_mono; intros b; apply pw_nonneg).
    rewrite pw_pw by exact N. replace ((al - 1) / al * (al / (al - 1))) with 1 by (field; lra). apply pw_1, N. }
  rewrite EQ, pw_mult; [|apply pw_nonneg|rewrite <- (mean_const 0 d'); apply mean_mono; intros a; rewrite <- (mean_const 0 (f' a)); apply mean_mono; intros b; apply pw_nonneg].
  f_equal. rewrite pw_pw by (left; apply exp_pos). replace (al / (al - 1) * ((al - 1) / al)) with 1 by (field; lra). apply pw_1. left. apply exp_pos.
Qed.
Lemma concentrated_after rho A B (d : distribution A) (f f' : A -> distribution B) : (forall a, concentrated rho (f a) (f' a)) -> concentrated rho (then_ d f) (then_ d f').
Proof. intros H. rewrite <- (Rplus_0_l rho). apply concentrated_then; [apply concentrated_same; lra|exact H]. Qed.
(** The usual definition: if the outcomes [l] have the weights [w a] and [v a], all positive on
    the second side, then the sum of [(w a) ^ al * (v a) ^ (1 - al)] is at most
    [exp (al * (al - 1) * rho)]. *)
Lemma concentrated_renyi rho A (d d' : distribution A) (l : list A) (w v : A -> R) al :
  proj1_sig d = map (fun a => (a, w a)) l -> proj1_sig d' = map (fun a => (a, v a)) l -> (forall a, 0 <= w a) -> (forall a, 0 < v a) -> 1 < al ->
  concentrated rho d d' -> fold_right Rplus 0 (map (fun a => pw (w a) al * Rpower (v a) (1 - al)) l) <= exp (al * (al - 1) * rho).
Proof.
  intros D D' PW PV X H. set (g := fun a => pw (w a / v a) (al - 1)). set (S := fold_right Rplus 0 (map (fun a => pw (w a) al * Rpower (v a) (1 - al)) l)).
  assert (RP : forall a, 0 <= w a / v a) by (intros a; apply Rmult_le_pos; [apply PW|left; apply Rinv_0_lt_compat, PV]).
  assert (F : forall a, w a * g a = pw (w a) al * Rpower (v a) (1 - al)).
  { intros a. unfold g. destruct (PW a) as [P|<-]; [|unfold Rdiv; rewrite !Rmult_0_l, pw_0; ring].
    assert (Q : 0 < w a / v a) by (apply Rmult_lt_0_compat; [exact P|apply Rinv_0_lt_compat, PV]).
    rewrite !pw_pos by assumption. unfold Rpower. pose proof (PV a) as V. unfold Rdiv. rewrite ln_mult, ln_Rinv by (try assumption; apply Rinv_0_lt_compat; exact V).
    rewrite <- (exp_ln (w a) P) at 1. rewrite <- !exp_plus. f_equal. ring. }
  assert (F' : forall a, v a * pw (g a) (al / (al - 1)) = pw (w a) al * Rpower (v a) (1 - al)).
  { intros a. unfold g. rewrite pw_pw by apply RP. replace ((al - 1) * (al / (al - 1))) with al by (field; lra). destruct (PW a) as [P|<-]; [|unfold Rdiv; rewrite !Rmult_0_l, pw_0; ring].
    assert (Q : 0 < w a / v a) by (apply Rmult_lt_0_compat; [exact P|apply Rinv_0_lt_compat, PV]).
    rewrite !pw_pos by assumption. unfold Rpower. pose proof (PV a) as V. unfold Rdiv. rewrite ln_mult, ln_Rinv by (try assumption; apply Rinv_0_lt_compat; exact V).
    rewrite <- (exp_ln (v a) V) at 1. rewrite <- !exp_plus. f_equal. ring. }
  assert (MS : mean g d = S) by (unfold mean, S; rewrite D; clear -F; induction l as [|a l IH]; cbn [map expect fold_right fst snd]; [reflexivity|rewrite IH, F; reflexivity]).
  assert (MS' : mean (fun a => pw (g a) (al / (al - 1))) d' = S) by (unfold mean, S; rewrite D'; clear -F'; induction l as [|a l IH]; cbn [map expect fold_right fst snd]; [reflexivity|rewrite IH, F'; reflexivity]).
  pose proof (H al g X ltac:(intros a; apply pw_nonneg)) as HH. rewrite MS, MS' in HH.
  assert (SN : 0 <= S) by (rewrite <- MS, <- (mean_const 0 d); apply mean_mono; intros a; apply pw_nonneg). destruct SN as [SP|<-]; [|left; apply exp_pos].
  rewrite (pw_pos S) in HH by exact SP. unfold Rpower in HH. rewrite <- exp_plus in HH. rewrite <- (exp_ln S SP) in HH at 1. apply Rnot_lt_le. intros LT.
  assert (LL : (al - 1) * rho + (al - 1) / al * ln S < ln S).
  { assert (al * (al - 1) * rho < ln S) by (rewrite <- (ln_exp (al * (al - 1) * rho)); apply ln_increasing; [apply exp_pos|exact LT]).
    assert (E : ln S = al * (al - 1) * rho / al + (al - 1) / al * ln S + (ln S - al * (al - 1) * rho) / al) by (field; lra).
    assert (0 < (ln S - al * (al - 1) * rho) / al) by (apply Rmult_lt_0_compat; [lra|apply Rinv_0_lt_compat; lra]).
    assert (al * (al - 1) * rho / al = (al - 1) * rho) by (field; lra). lra. }
  apply exp_increasing in LL. lra.
Qed.

(** The loss and delta of a budget; negative ones count as zero. *)
Definition amount (x : xq) : option R := match x with XFin q => Some (Rmax 0 (Q2R q)) | XPInf => None | XNInf => Some 0 end.
Definition dp (b : budget) {A} (d d' : distribution A) : Prop :=
  match b with
  | Pure e => match amount e with Some e => private e 0 d d' | None => True end
  | Approx e dl => match amount e, amount dl with Some e, Some dl => private e dl d d' | _, _ => True end
  | Zcdp r => match amount r with Some r => concentrated r d d' | None => True end
  end.
Lemma amount_0 x q : amount x = Some q -> 0 <= q.
Proof. destruct x; cbn; intros H; inversion H; [apply Rmax_l|lra]. Qed.
Lemma amount_le x y q : xle x y -> amount y = Some q -> exists p, amount x = Some p /\ p <= q.
Proof.
  destruct x as [x| |], y as [y| |]; cbn; intros L H; try contradiction; inversion H; subst; try (eexists; split; [reflexivity|]); try lra; [apply Rle_max_compat_l, Qle_Rle; exact L|apply Rmax_l].
Qed.
Lemma Q2R_0 q : (0 <= q)%Q -> 0 <= Q2R q. Proof. intros H. apply Qle_Rle in H. unfold Q2R at 1 in H. cbn in H. lra. Qed.
Lemma amount_sum x y z q : xle (XFin 0) x -> xle (XFin 0) y -> xeq (xadd x y) z -> amount z = Some q -> exists a b, amount x = Some a /\ amount y = Some b /\ a + b = q.
Proof.
  destruct x as [x| |], y as [y| |], z as [z| |]; cbn; intros X Y S H; try contradiction; inversion H; subst. exists (Rmax 0 (Q2R x)), (Rmax 0 (Q2R y)). split; [reflexivity|]. split; [reflexivity|].
  apply Q2R_0 in X, Y. apply Qeq_eqR in S. rewrite Q2R_plus in S. rewrite <- S, !Rmax_right by lra. reflexivity.
Qed.
Lemma dp_same b A (d : distribution A) : valid b -> dp b d d.
Proof.
  intros _. destruct b as [e|e dl|r]; cbn [dp]; [| |destruct (amount r) as [p|] eqn:L; [apply concentrated_same; eapply amount_0; eassumption|exact I]].
  - destruct (amount e) as [p|] eqn:L; [|exact I]. apply private_same; [eapply amount_0; eassumption|lra].
  - destruct (amount e) as [p|] eqn:L; [|exact I]. destruct (amount dl) as [q|] eqn:D; [|exact I]. apply private_same; eapply amount_0; eassumption.
Qed.
Lemma dp_more b c A (d d' : distribution A) : ble b c -> dp b d d' -> dp c d d'.
Proof.
  intros L N. destruct b as [e|e dl|r], c as [e'|e' dl'|r']; cbn [ble] in L; try contradiction; cbn [dp] in *; [| |destruct (amount r') as [p|] eqn:LC; [|exact I]; destruct (amount_le _ _ _ L LC) as (e2 & E & LE); rewrite E in N; eapply concentrated_more; eassumption].
  - destruct (amount e') as [p|] eqn:LC; [|exact I]. destruct (amount_le _ _ _ L LC) as (e2 & E & LE). rewrite E in N. eapply private_more; [exact LE|apply Rle_refl|exact N].
  - destruct L as (L & D). destruct (amount e') as [p|] eqn:LC; [|exact I]. destruct (amount dl') as [q|] eqn:DC; [|exact I].
    destruct (amount_le _ _ _ L LC) as (e2 & E & LE). destruct (amount_le _ _ _ D DC) as (d2 & E' & LE'). rewrite E, E' in N. eapply private_more; eassumption.
Qed.
Lemma dp_after b A B (d : distribution A) (f f' : A -> distribution B) : valid b -> (forall a, dp b (f a) (f' a)) -> dp b (then_ d f) (then_ d f').
Proof.
  intros _ N. destruct b as [e|e dl|r]; cbn [dp] in *; [| |destruct (amount r) as [p|]; [apply concentrated_after, N|exact I]].
  - destruct (amount e) as [p|]; [|exact I]. apply private_after, N.
  - destruct (amount e) as [p|]; [|exact I]. destruct (amount dl) as [q|]; [|exact I]. apply private_after, N.
Qed.
Lemma dp_infinite b A (d d' : distribution A) : infinite b -> dp b d d'.
Proof.
  intros H. destruct b as [e|e dl|e]; cbn [dp infinite] in *; [subst e; exact I| |subst e; exact I]. destruct H as [->|H]; [exact I|].
  destruct (amount e) as [p|] eqn:L; [|exact I]. destruct dl as [q| |]; cbn in H; try contradiction. cbn [amount]. apply Qeq_eqR in H. rewrite H. replace (Q2R 1) with 1 by (unfold Q2R; cbn; lra). rewrite Rmax_right by lra.
  intros g T. destruct (mean_test g d T), (mean_test g d' T). pose proof (exp_pos p). nra.
Qed.
Lemma dp_then left b rest A B (d d' : distribution A) (f f' : A -> distribution B) : valid left -> valid b -> spend left b = Some rest ->
  dp b d d' -> (forall a, dp rest (f a) (f' a)) -> dp left (then_ d f) (then_ d' f').
Proof.
  intros VL VB SP N NF. destruct (is_infinite left) eqn:IL; [apply dp_infinite, is_infinite_iff, IL|].
  assert (KD : same_kind left b) by (unfold spend in SP; rewrite IL in SP; destruct left, b; try discriminate; exact I).
  destruct (spend_spec left b rest VL VB KD SP) as [(IN & _)|(_ & _ & VR & KR & SUM)]; [apply dp_infinite, IN|].
  pose proof (SUM loss (or_introl eq_refl)) as SL. pose proof (SUM delta (or_intror eq_refl)) as SD. pose proof (loss_nonneg _ VR) as R1. pose proof (loss_nonneg _ VB) as R2. pose proof (delta_nonneg _ VR) as R3. pose proof (delta_nonneg _ VB) as R4.
  destruct left as [e|e dl|r], b as [e'|e' dl'|r'], rest as [e2|e2 dl2|r2]; try contradiction; cbn [dp loss delta] in *;
    [| |destruct (amount r) as [p|] eqn:L; [|exact I]; destruct (amount_sum _ _ _ _ R1 R2 SL L) as (a1 & a2 & E1 & E2 & <-); rewrite E1 in NF; rewrite E2 in N; rewrite Rplus_comm; apply concentrated_then; assumption].
  - destruct (amount e) as [p|] eqn:L; [|exact I]. destruct (amount_sum _ _ _ _ R1 R2 SL L) as (a1 & a2 & E1 & E2 & <-). rewrite E1 in NF. rewrite E2 in N.
    rewrite Rplus_comm, <- (Rplus_0_r 0). apply private_then; assumption.
  - destruct (amount e) as [p|] eqn:L; [|exact I]. destruct (amount dl) as [q|] eqn:D; [|exact I].
    destruct (amount_sum _ _ _ _ R1 R2 SL L) as (a1 & a2 & E1 & E2 & <-). destruct (amount_sum _ _ _ _ R3 R4 SD D) as (d1 & d2 & D1 & D2 & <-).
    rewrite E1, D1 in NF. rewrite E2, D2 in N. rewrite (Rplus_comm a1), (Rplus_comm d1). apply private_then; assumption.
Qed.
Definition differential_privacy : closeness :=
  {| dist := distribution; ret := @sure; dbind := @then_; close := @dp;
     close_same := dp_same; close_more := dp_more; close_after := dp_after; close_bind := dp_then |}.
