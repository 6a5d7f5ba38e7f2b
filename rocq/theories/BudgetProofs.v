(** Proofs about the budget model (Budget.v).  The specification vocabulary is
    at the top and mentions only numbers. *)
From Coq Require Import String Bool ZArith QArith Qabs Lqa Lia List.
From Verif Require Import Prelude Budget.
Import ListNotations.
Local Open Scope Q_scope.

(** ** Specification *)

(** A budget a user could have constructed: non-negative, delta in [0,1]. *)
Definition valid (b : budget) : Prop :=
  match b with
  | Pure e => xle (XFin 0) e
  | Approx e d => xle (XFin 0) e /\ xle (XFin 0) d /\ xle d (XFin 1)
  | Zcdp r => xle (XFin 0) r
  end.

(** Same privacy definition. *)
Definition same_kind (a b : budget) : Prop :=
  match a, b with
  | Pure _, Pure _ | Approx _ _, Approx _ _ | Zcdp _, Zcdp _ => True
  | _, _ => False
  end.

(** Component-wise order on budgets of the same kind. *)
Definition ble (a b : budget) : Prop :=
  match a, b with
  | Pure x, Pure y => xle x y
  | Approx x d, Approx y d' => xle x y /\ xle d d'
  | Zcdp x, Zcdp y => xle x y
  | _, _ => False
  end.

(** "[y] exceeds the finite amount [x] by at most one part in 10^9, or not at all". *)
Definition within_tolerance (y x : xq) : Prop :=
  match x, y with
  | XFin x, XFin y => y <= x \/ y - x <= x / inject_Z 1000000000
  | XPInf, _ => True
  | _, XNInf => True
  | _, _ => False
  end.

(** Numerically an ordinary (finite) float. *)
Definition representable (R : rounding) (x : xq) : Prop :=
  exists q, x = XFin q /\ xeq (rnd R q) (XFin q).

(** Infinite in the sense of the documentation. *)
Definition infinite (b : budget) : Prop :=
  match b with
  | Pure e | Zcdp e => e = XPInf
  | Approx e d => e = XPInf \/ xeq d (XFin 1)
  end.

(** ** Numbers *)

Lemma xleb_iff a b : xleb a b = true <-> xle a b.
Proof.
  destruct a, b; simpl; try (split; intros; congruence || tauto).
  apply Qle_bool_iff.
Qed.

Lemma xeqb_iff a b : xeqb a b = true <-> xeq a b.
Proof.
  destruct a, b; simpl; try (split; intros; congruence || tauto).
  apply Qeq_bool_iff.
Qed.

Lemma xeqb_inf a : xeqb a XPInf = true <-> a = XPInf.
Proof. destruct a; simpl; split; intros; congruence. Qed.

Lemma xle_refl a : xle a a.
Proof. destruct a; simpl; auto. apply Qle_refl. Qed.

Lemma xle_trans a b c : xle a b -> xle b c -> xle a c.
Proof. destruct a, b, c; simpl; try tauto. apply Qle_trans. Qed.

Lemma xle_total a b : xle a b \/ xle b a.
Proof.
  destruct a as [x| |], b as [y| |]; simpl; try tauto.
  destruct (Qlt_le_dec x y); [left; lra|right; lra].
Qed.

Lemma xltb_iff a b : xltb a b = true <-> ~ xle b a.
Proof.
  unfold xltb. rewrite negb_true_iff. rewrite <- xleb_iff.
  destruct (xleb b a); split; intros; congruence.
Qed.

Lemma xltb_false a b : xltb a b = false <-> xle b a.
Proof.
  unfold xltb. rewrite negb_false_iff. apply xleb_iff.
Qed.

Lemma xeq_refl a : xeq a a.
Proof. destruct a; simpl; auto. reflexivity. Qed.
Lemma xeq_sym a b : xeq a b -> xeq b a.
Proof. destruct a, b; simpl; try tauto. intros H; symmetry; assumption. Qed.
Lemma xeq_trans a b c : xeq a b -> xeq b c -> xeq a c.
Proof. destruct a, b, c; simpl; try tauto. intros; etransitivity; eassumption. Qed.

Lemma xle_antisym a b : xle a b -> xle b a -> xeq a b.
Proof. destruct a, b; simpl; try tauto. apply Qle_antisym. Qed.

Lemma xeq_xle a b : xeq a b -> xle a b.
Proof. destruct a, b; simpl; try tauto. intros H; rewrite H; apply Qle_refl. Qed.

Lemma nonneg_cases x : xle (XFin 0) x -> (exists q, x = XFin q /\ 0 <= q) \/ x = XPInf.
Proof. destruct x; simpl; eauto. tauto. Qed.

Section Proofs.
Variable R : rounding.

Lemma rnd_proper x y : x == y -> xeq (rnd R x) (rnd R y).
Proof.
  intros H. apply xle_antisym; apply rnd_mono; rewrite H; apply Qle_refl.
Qed.

Lemma rnd_nonneg x : 0 <= x -> xle (XFin 0) (rnd R x).
Proof.
  intros H. eapply xle_trans; [|apply rnd_mono; exact H].
  apply xeq_xle, xeq_sym, rnd_zero.
Qed.

Lemma ffrom_nonneg x : 0 <= x -> 0 <= ffrom R x.
Proof.
  intros H. pose proof (ffrom_mono R _ _ H) as M. pose proof (ffrom_zero R) as Z. lra.
Qed.

Lemma ffrom_le1 x : x <= 1 -> ffrom R x <= 1.
Proof. intros H. pose proof (ffrom_le R x). lra. Qed.

Lemma is_integer_spec q : is_integer q = true -> inject_Z (Qnum q / Z.pos (Qden q)) == q.
Proof.
  unfold is_integer. rewrite Z.eqb_eq. intros H.
  unfold Qeq, inject_Z; simpl. rewrite Z.mul_1_r.
  pose proof (Z_div_mod_eq_full (Qnum q) (Z.pos (Qden q))). lia.
Qed.

(** The number a user reads back. *)
Lemma to_int_or_float_nonneg x :
  xle (XFin 0) x -> exists v, pynum_x (to_int_or_float R x) = Some v /\ xle (XFin 0) v.
Proof.
  intros H. destruct (nonneg_cases _ H) as [(q & -> & Hq)| ->]; simpl.
  - destruct (is_integer q) eqn:E; simpl.
    + eexists; split; [reflexivity|]. simpl. unfold z2q.
      rewrite (is_integer_spec _ E). assumption.
    + eexists; split; [reflexivity|]. apply rnd_nonneg; assumption.
  - eexists; split; [reflexivity|]. exact I.
Qed.

(** A non-negative, non-NaN Python number. *)
Definition nnum (n : pynum) : Prop :=
  exists v, pynum_x n = Some v /\ xle (XFin 0) v.

Lemma nnum_to_float n :
  nnum n -> (exists v, to_float R n = Ok (FX v) /\ xle (XFin 0) v)
            \/ to_float R n = Err OverflowError.
Proof.
  intros (v & Hv & H). destruct n as [z|[x|]]; simpl in *; try discriminate.
  - inversion Hv; subst. unfold int_to_float.
    pose proof (rnd_nonneg (z2q z)) as N. simpl in H. specialize (N H).
    destruct (rnd R (z2q z)) eqn:E; auto. left; eauto.
  - inversion Hv; subst. left; eauto.
Qed.

Lemma fadd_nonneg x y : xle (XFin 0) x -> xle (XFin 0) y ->
  exists v, fadd R (FX x) (FX y) = FX v /\ xle (XFin 0) v.
Proof.
  intros Hx Hy.
  destruct (nonneg_cases _ Hx) as [(q & -> & Hq)| ->];
  destruct (nonneg_cases _ Hy) as [(r & -> & Hr)| ->]; simpl;
    eexists; (split; [reflexivity|]); try exact I.
  apply rnd_nonneg. lra.
Qed.

Lemma padd_nonneg a b : nnum a -> nnum b ->
  (exists c, padd R a b = Ok c /\ nnum c) \/ padd R a b = Err OverflowError.
Proof.
  intros Ha Hb.
  assert (G : forall u v, to_float R a = u -> to_float R b = v ->
     (exists c, (let* x := u in let* y := v in Ok (PFlt (fadd R x y))) = Ok c /\ nnum c)
      \/ (let* x := u in let* y := v in Ok (PFlt (fadd R x y))) = Err OverflowError).
  { intros u v Hu Hv. destruct (nnum_to_float a Ha) as [(x & Ex & Nx)|Ex];
    destruct (nnum_to_float b Hb) as [(y & Ey & Ny)|Ey];
    rewrite Ex in Hu; rewrite Ey in Hv; subst; cbn [bind]; auto.
    left. destruct (fadd_nonneg x y Nx Ny) as (w & Ew & Nw).
    rewrite Ew. eexists; split; [reflexivity|]. exists w; split; [reflexivity|assumption]. }
  destruct a as [za|fa]; destruct b as [zb|fb]; unfold padd, lift2.
  - left. eexists; split; [reflexivity|].
    destruct Ha as (v & Ev & Nv), Hb as (w & Ew & Nw). simpl in Ev, Ew.
    inversion Ev; inversion Ew; subst. exists (XFin (z2q (za + zb))). split; [reflexivity|].
    simpl in *. unfold z2q in *. rewrite inject_Z_plus. lra.
  - apply G; reflexivity.
  - apply G; reflexivity.
  - apply G; reflexivity.
Qed.

Lemma isnan_nnum n : nnum n -> isnan R n = Ok false \/ isnan R n = Err OverflowError.
Proof.
  intros H. unfold isnan. destruct (nnum_to_float n H) as [(v & E & _)|E]; rewrite E; simpl; auto.
Qed.

Lemma plt0_nnum n : nnum n -> plt n (PInt 0) = false.
Proof.
  intros (v & E & N). unfold plt. rewrite E. simpl. apply xltb_false. exact N.
Qed.

Lemma to_exact_nnum n : nnum n -> exists v, to_exact_number R (ANum n) = Ok v /\ xle (XFin 0) v.
Proof.
  intros (v & E & N). destruct n as [z|[x|]]; simpl in *; try discriminate; inversion E; subst.
  - eauto.
  - destruct (nonneg_cases _ N) as [(q & -> & Hq)| ->]; simpl; eexists; split; try reflexivity.
    simpl. apply ffrom_nonneg; assumption.
Qed.

Lemma mk_pure_nnum n : nnum n ->
  (exists v, mk_pure R (ANum n) = Ok (Pure v) /\ xle (XFin 0) v)
  \/ mk_pure R (ANum n) = Err OverflowError.
Proof.
  intros H. unfold mk_pure. unfold arg_isnan, arg_lt_int.
  destruct (isnan_nnum n H) as [E|E]; rewrite E; simpl; auto.
  rewrite (plt0_nnum n H); simpl.
  destruct (to_exact_nnum n H) as (v & Ev & Nv). simpl in Ev. rewrite Ev. simpl. left; eauto.
Qed.

Lemma mk_zcdp_nnum n : nnum n ->
  (exists v, mk_zcdp R (ANum n) = Ok (Zcdp v) /\ xle (XFin 0) v)
  \/ mk_zcdp R (ANum n) = Err OverflowError.
Proof.
  intros H. unfold mk_zcdp. unfold arg_isnan, arg_lt_int.
  destruct (isnan_nnum n H) as [E|E]; rewrite E; simpl; auto.
  rewrite (plt0_nnum n H); simpl.
  destruct (to_exact_nnum n H) as (v & Ev & Nv). simpl in Ev. rewrite Ev. simpl. left; eauto.
Qed.

Definition le1 (n : pynum) : Prop := exists v, pynum_x n = Some v /\ xle v (XFin 1).

Lemma mk_approx_nnum n m : nnum n -> nnum m -> le1 m ->
  (exists v d, mk_approx R (ANum n) (ANum m) = Ok (Approx v d)
               /\ xle (XFin 0) v /\ xle (XFin 0) d /\ xle d (XFin 1))
  \/ mk_approx R (ANum n) (ANum m) = Err OverflowError.
Proof.
  intros H H' (w & Ew & Lw). unfold mk_approx. unfold arg_isnan, arg_lt_int, arg_gt_int.
  destruct (isnan_nnum n H) as [E|E]; rewrite E; simpl; auto.
  destruct (isnan_nnum m H') as [E'|E']; rewrite E'; simpl; auto.
  rewrite (plt0_nnum n H); simpl.
  rewrite (plt0_nnum m H'); simpl.
  assert (plt (PInt 1) m = false) as ->.
  { unfold plt. rewrite Ew. simpl. apply xltb_false. exact Lw. }
  simpl.
  destruct (to_exact_nnum n H) as (v & Ev & Nv). simpl in Ev. rewrite Ev. simpl.
  destruct (to_exact_nnum m H') as (d & Ed & Nd). pose proof Ed as Ed'. simpl in Ed. rewrite Ed.
  simpl. left. exists v, d. repeat split; auto.
  destruct m as [z|[x|]]; simpl in *; try discriminate.
  - inversion Ew; inversion Ed; subst; assumption.
  - inversion Ew; subst. destruct w as [q| |]; simpl in *.
    + inversion Ed; subst. simpl. apply ffrom_le1; assumption.
    + tauto.
    + inversion Ed; subst. tauto.
Qed.

Lemma pmin1_nnum n : nnum n -> nnum (pmin1 n).
Proof.
  intros H. unfold pmin1. destruct (plt _ _); [|assumption].
  exists (XFin 1); split; [reflexivity|]. simpl. lra.
Qed.

Lemma pmin1_le1 n : nnum n -> le1 (pmin1 n).
Proof.
  intros (v & E & N). unfold pmin1. destruct (plt _ _) eqn:P.
  - exists (XFin 1); split; [reflexivity|apply xle_refl].
  - exists v; split; [assumption|]. unfold plt in P. simpl in P. rewrite E in P.
    apply xltb_false in P. exact P.
Qed.

(** *** Constructors *)

Lemma arg_checks a :
  arg_isnan R a = Ok false -> arg_lt_int a 0 = false ->
  forall x, to_exact_number R a = Ok x -> xle (XFin 0) x.
Proof.
  destruct a as [n|x]; simpl; intros Hn Hl v Hv.
  - destruct n as [z|[y|]]; simpl in *.
    + inversion Hv; subst. unfold plt in Hl. simpl in Hl. apply xltb_false in Hl. exact Hl.
    + unfold plt in Hl. simpl in Hl. apply xltb_false in Hl.
      destruct (nonneg_cases _ Hl) as [(q & -> & Hq)| ->]; inversion Hv; subst; simpl; auto.
      apply ffrom_nonneg; assumption.
    + discriminate.
  - inversion Hv; subst. apply xltb_false in Hl. exact Hl.
Qed.

Lemma arg_checks1 a :
  arg_gt_int a 1 = false -> forall x, to_exact_number R a = Ok x -> xle x (XFin 1).
Proof.
  destruct a as [n|x]; simpl; intros Hl v Hv.
  - destruct n as [z|[y|]]; simpl in *.
    + inversion Hv; subst. unfold plt in Hl. simpl in Hl. apply xltb_false in Hl. exact Hl.
    + unfold plt in Hl. simpl in Hl. apply xltb_false in Hl.
      destruct y; inversion Hv; subst; simpl in *; auto. apply ffrom_le1; assumption.
    + discriminate.
  - inversion Hv; subst. apply xltb_false in Hl. exact Hl.
Qed.

Lemma mk_pure_valid a b : mk_pure R a = Ok b -> valid b.
Proof.
  unfold mk_pure. intros H. apply bind_ok in H as (n & Hn & H).
  destruct n; simpl in H; [discriminate|].
  destruct (arg_lt_int a 0) eqn:E; simpl in H; [discriminate|].
  apply bind_ok in H as (e & He & H). inversion H; subst; simpl.
  eapply arg_checks; eauto.
Qed.

Lemma mk_zcdp_valid a b : mk_zcdp R a = Ok b -> valid b.
Proof.
  unfold mk_zcdp. intros H. apply bind_ok in H as (n & Hn & H).
  destruct n; simpl in H; [discriminate|].
  destruct (arg_lt_int a 0) eqn:E; simpl in H; [discriminate|].
  apply bind_ok in H as (e & He & H). inversion H; subst; simpl.
  eapply arg_checks; eauto.
Qed.

Lemma mk_approx_valid a d b : mk_approx R a d = Ok b -> valid b.
Proof.
  unfold mk_approx. intros H. apply bind_ok in H as (n & Hn & H).
  destruct n; simpl in H; [discriminate|].
  apply bind_ok in H as (m & Hm & H).
  destruct m; simpl in H; [discriminate|].
  destruct (arg_lt_int a 0) eqn:E; simpl in H; [discriminate|].
  destruct (arg_lt_int d 0) eqn:E0; simpl in H; [discriminate|].
  destruct (arg_gt_int d 1) eqn:E1; simpl in H; [discriminate|].
  apply bind_ok in H as (e & He & H). apply bind_ok in H as (f & Hf & H).
  inversion H; subst; simpl. split; [|split].
  - apply (arg_checks a); auto.
  - apply (arg_checks d); auto.
  - apply (arg_checks1 d); auto.
Qed.

Lemma approx_add_valid a b c : valid a -> valid b -> approx_add R a b = Ok c -> valid c.
Proof.
  unfold approx_add. destruct a; try discriminate. destruct b; try discriminate.
  intros Va Vb H.
  destruct (is_infinite _); [inversion H; subst; assumption|].
  destruct (is_infinite _); [inversion H; subst; assumption|].
  apply bind_ok in H as (x & _ & H). apply bind_ok in H as (y & _ & H).
  eapply mk_approx_valid; eauto.
Qed.

Lemma badd_valid a b c : valid a -> valid b -> badd R a b = Ok c -> valid c.
Proof.
  destruct a, b; cbn [badd]; unfold is_infinite; intros Va Vb H; try discriminate.
  - destruct (xeqb eps XPInf); [inversion H; subst; assumption|].
    destruct (xeqb eps0 XPInf); [inversion H; subst; assumption|].
    apply bind_ok in H as (x & _ & H). eapply mk_pure_valid; eauto.
  - apply bind_ok in H as (x & Hx & H). apply mk_approx_valid in Hx.
    eapply approx_add_valid; [| |eassumption]; assumption.
  - apply bind_ok in H as (x & Hx & H). apply mk_approx_valid in Hx.
    eapply (approx_add_valid (Approx eps delta)); [| |eassumption]; assumption.
  - eapply (approx_add_valid (Approx eps delta) (Approx eps0 delta0)); eassumption.
  - destruct (xeqb rho XPInf); [inversion H; subst; assumption|].
    destruct (xeqb rho0 XPInf); [inversion H; subst; assumption|].
    apply bind_ok in H as (x & _ & H). eapply mk_zcdp_valid; eauto.
Qed.

Lemma approx_sub_valid a b c : valid a -> approx_sub R a b = Ok c -> valid c.
Proof.
  unfold approx_sub. destruct a; try discriminate. intros Va H.
  destruct (is_infinite _); [inversion H; subst; assumption|].
  apply bind_ok in H as (x & _ & H). destruct x; try discriminate.
  apply bind_ok in H as (x & _ & H). apply bind_ok in H as (y & _ & H).
  eapply mk_approx_valid; eauto.
Qed.

Lemma bsub_valid a b c : valid a -> bsub R a b = Ok c -> valid c.
Proof.
  destruct a, b; cbn [bsub]; unfold is_infinite; intros Va H; try discriminate.
  - destruct (xeqb eps XPInf); [inversion H; subst; assumption|].
    apply bind_ok in H as (x & _ & H). destruct x; try discriminate.
    apply bind_ok in H as (y & _ & H). eapply mk_pure_valid; eauto.
  - apply bind_ok in H as (x & Hx & H).
    eapply (approx_sub_valid (Approx eps delta)); [|eassumption]; assumption.
  - eapply (approx_sub_valid (Approx eps delta) (Approx eps0 delta0)); [|eassumption]; assumption.
  - destruct (xeqb rho XPInf); [inversion H; subst; assumption|].
    apply bind_ok in H as (x & _ & H). destruct x; try discriminate.
    apply bind_ok in H as (y & _ & H). eapply mk_zcdp_valid; eauto.
Qed.

Lemma bmul_valid a o c : bmul R a o = Ok c -> valid c.
Proof.
  unfold bmul. intros H. apply bind_ok in H as ([] & _ & H). destruct a.
  - apply bind_ok in H as (x & _ & H). eapply mk_pure_valid; eauto.
  - apply bind_ok in H as (x & _ & H). apply bind_ok in H as (y & _ & H).
    eapply mk_approx_valid; eauto.
  - apply bind_ok in H as (x & _ & H). eapply mk_zcdp_valid; eauto.
Qed.

Lemma bdiv_valid a o c : bdiv R a o = Ok c -> valid c.
Proof.
  unfold bdiv. intros H. apply bind_ok in H as ([] & _ & H). destruct a.
  - apply bind_ok in H as (x & _ & H). eapply mk_pure_valid; eauto.
  - apply bind_ok in H as (x & _ & H). apply bind_ok in H as (y & _ & H).
    eapply mk_approx_valid; eauto.
  - apply bind_ok in H as (x & _ & H). eapply mk_zcdp_valid; eauto.
Qed.

(** *** Addition of valid budgets of compatible kinds only fails on float overflow *)

Lemma nnum_tiof x : xle (XFin 0) x -> nnum (to_int_or_float R x).
Proof. intros H. exact (to_int_or_float_nonneg x H). Qed.

Lemma nnum0 : nnum (PInt 0).
Proof. exists (XFin 0); split; [reflexivity|apply xle_refl]. Qed.
Lemma le1_0 : le1 (PInt 0).
Proof. exists (XFin 0); split; [reflexivity|simpl; unfold z2q; simpl; lra]. Qed.

Lemma approx_add_total e d e' d' :
  valid (Approx e d) -> valid (Approx e' d') ->
  (exists c, approx_add R (Approx e d) (Approx e' d') = Ok c)
  \/ approx_add R (Approx e d) (Approx e' d') = Err OverflowError.
Proof.
  intros (A & B & C) (A' & B' & C'). unfold approx_add.
  destruct (is_infinite (Approx e d)); [left; eauto|].
  destruct (is_infinite (Approx e' d')); [left; eauto|].
  destruct (padd_nonneg _ _ (nnum_tiof _ A) (nnum_tiof _ A')) as [(x & Ex & Nx)|Ex];
    rewrite Ex; simpl; auto.
  destruct (padd_nonneg _ _ (nnum_tiof _ B) (nnum_tiof _ B')) as [(y & Ey & Ny)|Ey];
    rewrite Ey; simpl; auto.
  destruct (mk_approx_nnum x (pmin1 y) Nx (pmin1_nnum y Ny) (pmin1_le1 y Ny))
    as [(v & w & E & _)|E]; rewrite E; eauto.
Qed.

Definition compatible (a b : budget) : Prop :=
  match a, b with
  | Zcdp _, Zcdp _ => True
  | Zcdp _, _ | _, Zcdp _ => False
  | _, _ => True
  end.

Lemma promote_ok e : xle (XFin 0) e ->
  (exists v, mk_approx R (ANum (to_int_or_float R e)) (ANum (PInt 0)) = Ok (Approx v (XFin 0))
             /\ xle (XFin 0) v)
  \/ mk_approx R (ANum (to_int_or_float R e)) (ANum (PInt 0)) = Err OverflowError.
Proof.
  intros H. destruct (mk_approx_nnum _ _ (nnum_tiof _ H) nnum0 le1_0) as [(v & w & E & N & _)|E]; auto.
  left. exists v. rewrite E. split; [|assumption].
  unfold mk_approx in E. apply bind_ok in E as (n & _ & E).
  destruct n; simpl in E; [discriminate|].
  apply bind_ok in E as (m & _ & E).
  destruct m; simpl in E; [discriminate|].
  destruct (plt _ _); simpl in E; [discriminate|].
  apply bind_ok in E as (n & _ & E). inversion E; subst. reflexivity.
Qed.

Lemma badd_total a b : valid a -> valid b -> compatible a b ->
  (exists c, badd R a b = Ok c) \/ badd R a b = Err OverflowError.
Proof.
  destruct a, b; cbn [badd compatible]; unfold is_infinite; intros Va Vb K; try tauto.
  - destruct (xeqb eps XPInf); [eauto|]. destruct (xeqb eps0 XPInf); [eauto|].
    destruct (padd_nonneg _ _ (nnum_tiof _ Va) (nnum_tiof _ Vb)) as [(x & Ex & Nx)|Ex];
      rewrite Ex; simpl; auto.
    destruct (mk_pure_nnum x Nx) as [(v & E & _)|E]; rewrite E; eauto.
  - destruct (promote_ok _ Va) as [(v & E & N)|E]; rewrite E; cbn [bind]; auto.
    apply (approx_add_total v (XFin 0) eps0 delta).
    + simpl; repeat split; auto; lra.
    + exact Vb.
  - destruct (promote_ok _ Vb) as [(v & E & N)|E]; rewrite E; cbn [bind]; auto.
    apply (approx_add_total eps delta v (XFin 0)).
    + exact Va.
    + simpl; repeat split; auto; lra.
  - apply (approx_add_total eps delta eps0 delta0); assumption.
  - destruct (xeqb rho XPInf); [eauto|]. destruct (xeqb rho0 XPInf); [eauto|].
    destruct (padd_nonneg _ _ (nnum_tiof _ Va) (nnum_tiof _ Vb)) as [(x & Ex & Nx)|Ex];
      rewrite Ex; simpl; auto.
    destruct (mk_zcdp_nnum x Nx) as [(v & E & _)|E]; rewrite E; eauto.
Qed.

Lemma badd_incompatible a b : ~ compatible a b -> badd R a b = Err TypeError.
Proof. destruct a, b; simpl; tauto. Qed.

(** *** Tolerance *)

Lemma slightly_higher_spec y x :
  slightly_higher y x = true <->
  exists r, x = XFin r /\ exists q, y = XFin q /\ r < q /\ q - r <= r / inject_Z 1000000000.
Proof.
  unfold slightly_higher. split.
  - destruct x as [r| |]; try discriminate. intros H. exists r; split; [reflexivity|].
    destruct y as [q| |]; cbn [xsub xabs xleb] in H; try discriminate.
    destruct (Qle_bool 0 (r - q)) eqn:E; [discriminate|].
    exists q; split; [reflexivity|].
    assert (~ 0 <= r - q) as N by (rewrite <- Qle_bool_iff; congruence).
    apply Qle_bool_iff in H.
    assert (Qabs (r - q) == - (r - q)) as A by (apply Qabs_neg; lra). rewrite A in H.
    unfold tolerance in H. change (10 ^ 9)%Z with 1000000000%Z in H.
    split; lra.
  - intros (r & -> & q & -> & H1 & H2). cbn [xsub xabs xleb].
    assert (Qle_bool 0 (r - q) = false) as ->.
    { apply not_true_is_false. rewrite Qle_bool_iff. lra. }
    apply Qle_bool_iff.
    assert (Qabs (r - q) == - (r - q)) as A by (apply Qabs_neg; lra). rewrite A.
    unfold tolerance. change (10 ^ 9)%Z with 1000000000%Z. lra.
Qed.

Lemma adjusted_number_cases y x :
  (adjusted_number y x = y /\ ~ (exists r q, x = XFin r /\ y = XFin q /\ r < q /\
                                 q - r <= r / inject_Z 1000000000))
  \/ (adjusted_number y x = x /\ exists r q, x = XFin r /\ y = XFin q /\ r < q /\
                                 q - r <= r / inject_Z 1000000000).
Proof.
  unfold adjusted_number. destruct (slightly_higher y x) eqn:E.
  - right; split; [reflexivity|]. apply slightly_higher_spec in E as (r & -> & q & -> & H).
    exists r, q; auto.
  - left; split; [reflexivity|]. intros (r & q & -> & -> & H).
    assert (slightly_higher (XFin q) (XFin r) = true) as T; [|congruence].
    apply slightly_higher_spec. exists r; split; auto. exists q; auto.
Qed.

Lemma adjusted_number_le y x : xle (adjusted_number y x) y.
Proof.
  destruct (adjusted_number_cases y x) as [[-> _]|(-> & r & q & -> & -> & H & _)].
  - apply xle_refl.
  - simpl; lra.
Qed.

Lemma adjusted_number_nonneg y x : xle (XFin 0) y -> xle (XFin 0) x ->
  xle (XFin 0) (adjusted_number y x).
Proof. unfold adjusted_number. destruct (slightly_higher y x); auto. Qed.

Lemma adjusted_budget_total a b : valid a -> valid b -> same_kind a b ->
  exists c, adjusted_budget R a b = Ok c.
Proof.
  destruct a, b; simpl; intros Va Vb K; try tauto.
  - unfold mk_pure; simpl.
    pose proof (adjusted_number_nonneg _ _ Va Vb) as N. unfold z2q; simpl.
    apply xltb_false in N. change (inject_Z 0) with 0. rewrite N. simpl. eauto.
  - unfold mk_approx; simpl. destruct Va as (A & B & C), Vb as (A' & B' & C').
    pose proof (adjusted_number_nonneg _ _ A A') as N.
    pose proof (adjusted_number_nonneg _ _ B B') as M.
    pose proof (xle_trans _ _ _ (adjusted_number_le delta delta0) C) as L.
    apply xltb_false in N. apply xltb_false in M. apply xltb_false in L.
    unfold z2q; simpl. change (inject_Z 0) with 0. change (inject_Z 1) with 1.
    rewrite N, M, L. simpl. eauto.
  - unfold mk_zcdp; simpl.
    pose proof (adjusted_number_nonneg _ _ Va Vb) as N. unfold z2q; simpl.
    apply xltb_false in N. change (inject_Z 0) with 0. rewrite N. simpl. eauto.
Qed.

(** What the charge of one component may be. *)
Definition slightly_over (req rem : xq) : Prop :=
  exists r q, rem = XFin r /\ req = XFin q /\ r < q /\ q - r <= r / inject_Z 1000000000.

Definition adjusted_to (req rem c : xq) : Prop :=
  (slightly_over req rem /\ c = rem) \/ (~ slightly_over req rem /\ c = req).

Definition adjusted_componentwise (req rem c : budget) : Prop :=
  match req, rem, c with
  | Pure x, Pure y, Pure z => adjusted_to x y z
  | Zcdp x, Zcdp y, Zcdp z => adjusted_to x y z
  | Approx x d, Approx y d', Approx z d'' => adjusted_to x y z /\ adjusted_to d d' d''
  | _, _, _ => False
  end.

Lemma adjusted_number_to y x : adjusted_to y x (adjusted_number y x).
Proof.
  destruct (adjusted_number_cases y x) as [[E N]|[E P]].
  - right. split; assumption.
  - left. split; assumption.
Qed.

Lemma adjusted_to_le y x c : adjusted_to y x c -> xle c y.
Proof.
  intros [((r & q & -> & -> & H & _) & ->)|(_ & ->)].
  - simpl; lra.
  - apply xle_refl.
Qed.

Lemma adjusted_budget_ok a b c :
  adjusted_budget R a b = Ok c -> adjusted_componentwise a b c.
Proof.
  destruct a, b; cbn [adjusted_budget]; intros H; try discriminate.
  - unfold mk_pure in H. simpl in H. destruct (xltb _ _); simpl in H; inversion H; subst.
    simpl. apply adjusted_number_to.
  - unfold mk_approx in H. simpl in H. destruct (xltb _ _); simpl in H; [discriminate|].
    destruct (xltb _ _); simpl in H; [discriminate|].
    destruct (xltb _ _); simpl in H; inversion H; subst.
    simpl. split; apply adjusted_number_to.
  - unfold mk_zcdp in H. simpl in H. destruct (xltb _ _); simpl in H; inversion H; subst.
    simpl. apply adjusted_number_to.
Qed.

Lemma adjusted_componentwise_le a b c : adjusted_componentwise a b c -> ble c a.
Proof.
  destruct a, b, c; simpl; try tauto; intros H.
  - eapply adjusted_to_le; eauto.
  - destruct H; split; eapply adjusted_to_le; eauto.
  - eapply adjusted_to_le; eauto.
Qed.

(** *** Equality and hashing *)

Lemma is_infinite_iff b : is_infinite b = true <-> infinite b.
Proof.
  destruct b; simpl.
  - apply xeqb_inf.
  - rewrite orb_true_iff, xeqb_inf, xeqb_iff. reflexivity.
  - apply xeqb_inf.
Qed.

Lemma is_infinite_false b : is_infinite b = false <-> ~ infinite b.
Proof.
  rewrite <- is_infinite_iff. destruct (is_infinite b); split; intros; congruence.
Qed.

Definition budget_eq (a b : budget) : Prop :=
  match a, b with
  | Pure x, Pure y => xeq x y
  | Zcdp x, Zcdp y => xeq x y
  | Approx e d, Approx e' d' => (infinite a /\ infinite b) \/ (xeq e e' /\ xeq d d')
  | _, _ => False
  end.

Lemma budget_eqb_iff a b : budget_eqb a b = true <-> budget_eq a b.
Proof.
  destruct a as [x|e d|x], b as [y|e' d'|y]; cbn [budget_eqb budget_eq];
    try (split; intros; congruence || tauto); try apply xeqb_iff.
  destruct (is_infinite (Approx e d)) eqn:E; destruct (is_infinite (Approx e' d')) eqn:E';
    cbn [andb]; rewrite ?andb_true_iff, ?xeqb_iff;
    rewrite ?is_infinite_iff, ?is_infinite_false in *; tauto.
Qed.

Lemma xeq_inf_l x y : xeq x y -> x = XPInf -> y = XPInf.
Proof. intros H ->. destruct y; simpl in H; tauto. Qed.

Lemma infinite_xeq e d e' d' : xeq e e' -> xeq d d' ->
  infinite (Approx e d) -> infinite (Approx e' d').
Proof.
  simpl. intros H H' [->|K].
  - left. eapply xeq_inf_l; eauto.
  - right. eapply xeq_trans; [apply xeq_sym; eassumption|assumption].
Qed.

Lemma budget_eq_refl a : budget_eq a a.
Proof. destruct a; simpl; try apply xeq_refl. right; split; apply xeq_refl. Qed.

Lemma budget_eq_sym a b : budget_eq a b -> budget_eq b a.
Proof.
  destruct a, b; simpl; try tauto; try apply xeq_sym.
  intros [[H H']|[H H']]; [left; tauto|right; split; apply xeq_sym; assumption].
Qed.

Lemma budget_eq_trans a b c : budget_eq a b -> budget_eq b c -> budget_eq a c.
Proof.
  destruct a as [x|e d|x], b as [y|e' d'|y], c as [z|e'' d''|z]; cbn [budget_eq];
    try tauto; try apply xeq_trans.
  intros [[H H']|[H H']] [[K K']|[K K']].
  - left; tauto.
  - left; split; [assumption|]. eapply infinite_xeq; eassumption.
  - left; split; [|assumption].
    eapply infinite_xeq; [apply xeq_sym; exact H|apply xeq_sym; exact H'|exact K].
  - right; split; eapply xeq_trans; eassumption.
Qed.

(** Python's hash() maps numerically equal numbers to the same value. *)
Definition hkey_same (a b : hkey) : Prop :=
  match a, b with
  | HPure n, HPure m | HZcdp n, HZcdp m =>
      exists x y, pynum_x n = Some x /\ pynum_x m = Some y /\ xeq x y
  | HApprox e d, HApprox e' d' => xeq e e' /\ xeq d d'
  | _, _ => False
  end.

Lemma is_integer_iff q : is_integer q = true <-> exists z, q == inject_Z z.
Proof.
  split.
  - intros H. eexists. symmetry. apply is_integer_spec. exact H.
  - intros (z & E). unfold is_integer. apply Z.eqb_eq.
    unfold Qeq, inject_Z in E; simpl in E. rewrite Z.mul_1_r in E. rewrite E.
    apply Z.mod_mul. lia.
Qed.

Lemma is_integer_proper p q : p == q -> is_integer p = is_integer q.
Proof.
  intros H. destruct (is_integer p) eqn:E; destruct (is_integer q) eqn:E'; auto.
  - apply is_integer_iff in E as (z & Hz). rewrite H in Hz.
    assert (is_integer q = true); [|congruence]. apply is_integer_iff; eauto.
  - apply is_integer_iff in E' as (z & Hz). rewrite <- H in Hz.
    assert (is_integer p = true); [|congruence]. apply is_integer_iff; eauto.
Qed.

Lemma to_int_or_float_xeq x y : xeq x y ->
  exists u v, pynum_x (to_int_or_float R x) = Some u /\
              pynum_x (to_int_or_float R y) = Some v /\ xeq u v.
Proof.
  destruct x as [p| |], y as [q| |]; simpl; try tauto; intros H.
  - rewrite <- (is_integer_proper _ _ H). destruct (is_integer p) eqn:E.
    + exists (XFin (z2q (Qnum p / Z.pos (Qden p)))), (XFin (z2q (Qnum q / Z.pos (Qden q)))).
      split; [reflexivity|split; [reflexivity|]]. simpl. unfold z2q.
      rewrite (is_integer_spec _ E). rewrite (is_integer_proper _ _ H) in E.
      rewrite (is_integer_spec _ E). exact H.
    + exists (rnd R p), (rnd R q). split; [reflexivity|split; [reflexivity|]].
      apply rnd_proper; exact H.
  - exists XPInf, XPInf; simpl; auto.
  - exists XNInf, XNInf; simpl; auto.
Qed.

Lemma hash_consistent a b : budget_eq a b -> hkey_same (hash_key R a) (hash_key R b).
Proof.
  destruct a as [x|e d|x], b as [y|e' d'|y]; simpl; try tauto.
  - apply to_int_or_float_xeq.
  - intros H.
    assert (I : is_infinite (Approx e d) = true <-> is_infinite (Approx e' d') = true).
    { rewrite !is_infinite_iff. destruct H as [[H H']|[H H']]; [simpl; tauto|].
      split; apply infinite_xeq; auto using xeq_sym. }
    simpl in I.
    destruct (xeqb e XPInf || xeqb d (XFin 1)) eqn:E;
    destruct (xeqb e' XPInf || xeqb d' (XFin 1)) eqn:E'; simpl; auto.
    + exfalso. assert (false = true) by tauto. discriminate.
    + exfalso. assert (false = true) by tauto. discriminate.
    + destruct H as [[H H']|H]; [|exact H].
      exfalso. change (infinite (Approx e d)) in H. apply is_infinite_iff in H.
      simpl in H. congruence.
  - apply to_int_or_float_xeq.
Qed.

(** *** Infinite budgets *)

Lemma mk_approx_inf : mk_approx R (ANum (PFlt (FX XPInf))) (ANum (PInt 0)) =
  match rnd R 0 with XFin _ => Ok (Approx XPInf (XFin 0)) | _ => Err OverflowError end.
Proof.
  unfold mk_approx. simpl. unfold isnan. simpl. unfold int_to_float, z2q. simpl.
  change (inject_Z 0) with 0. destruct (rnd R 0); reflexivity.
Qed.

Lemma rnd0_fin : exists q, rnd R 0 = XFin q.
Proof. pose proof (rnd_zero R). destruct (rnd R 0); simpl in *; try tauto. eauto. Qed.

Lemma approx_add_inf a b c :
  approx_add R a b = Ok c -> infinite a \/ infinite b -> infinite c.
Proof.
  unfold approx_add. destruct a as [|e d|]; try discriminate. destruct b as [|e' d'|]; try discriminate.
  intros H K. destruct (is_infinite (Approx e d)) eqn:E.
  { inversion H; subst. apply is_infinite_iff; assumption. }
  destruct (is_infinite (Approx e' d')) eqn:E'.
  { inversion H; subst. apply is_infinite_iff; assumption. }
  apply is_infinite_false in E. apply is_infinite_false in E'. tauto.
Qed.

Lemma badd_inf a b c : badd R a b = Ok c -> infinite a \/ infinite b -> infinite c.
Proof.
  destruct a as [x|e d|x], b as [y|e' d'|y]; cbn [badd]; intros H K; try discriminate.
  - destruct (is_infinite (Pure x)) eqn:E.
    { inversion H; subst. apply is_infinite_iff; assumption. }
    destruct (is_infinite (Pure y)) eqn:E'.
    { inversion H; subst. apply is_infinite_iff; assumption. }
    apply is_infinite_false in E. apply is_infinite_false in E'. tauto.
  - apply bind_ok in H as (a' & Ha & H). eapply approx_add_inf; [eassumption|].
    destruct K as [K|K]; [left|right; assumption]. simpl in K; subst x.
    simpl in Ha. rewrite mk_approx_inf in Ha. destruct rnd0_fin as (q & Eq). rewrite Eq in Ha.
    inversion Ha; subst. simpl. auto.
  - apply bind_ok in H as (a' & Ha & H). eapply approx_add_inf; [eassumption|].
    destruct K as [K|K]; [left; assumption|right]. simpl in K; subst y.
    simpl in Ha. rewrite mk_approx_inf in Ha. destruct rnd0_fin as (q & Eq). rewrite Eq in Ha.
    inversion Ha; subst. simpl. auto.
  - eapply approx_add_inf; eassumption.
  - destruct (is_infinite (Zcdp x)) eqn:E.
    { inversion H; subst. apply is_infinite_iff; assumption. }
    destruct (is_infinite (Zcdp y)) eqn:E'.
    { inversion H; subst. apply is_infinite_iff; assumption. }
    apply is_infinite_false in E. apply is_infinite_false in E'. tauto.
Qed.

Lemma bsub_inf a b : infinite a -> same_kind a b -> bsub R a b = Ok a.
Proof.
  intros H K. apply is_infinite_iff in H.
  destruct a, b; simpl in K; try tauto; cbn [bsub]; unfold approx_sub; rewrite H; reflexivity.
Qed.

(** *** Subtraction *)

Lemma representable_fin q : representable R (XFin q) -> xeq (rnd R q) (XFin q).
Proof. intros (p & E & H). inversion E; subst; assumption. Qed.

(** the value used by float operations on a representable amount *)
Lemma to_float_repr q : representable R (XFin q) ->
  exists p, to_float R (to_int_or_float R (XFin q)) = Ok (FX (XFin p)) /\ p == q.
Proof.
  intros H. apply representable_fin in H. simpl. destruct (is_integer q) eqn:E; simpl.
  - unfold int_to_float, z2q. pose proof (is_integer_spec _ E) as Z.
    pose proof (rnd_proper _ _ Z) as P.
    pose proof (xeq_trans _ _ _ P H) as P'.
    destruct (rnd R (inject_Z _)) as [p| |]; simpl in P'; try tauto. eauto.
  - destruct (rnd R q) as [p| |] eqn:Er; simpl in H; try tauto. eauto.
Qed.

Lemma z_int_repr z q : inject_Z z == q -> representable R (XFin q) ->
  exists p, int_to_float R z = Ok (FX (XFin p)) /\ p == q.
Proof.
  intros Hz H. apply representable_fin in H. unfold int_to_float, z2q.
  pose proof (xeq_trans _ _ _ (rnd_proper _ _ Hz) H) as P.
  destruct (rnd R (inject_Z z)) as [p| |]; simpl in P; try tauto. eauto.
Qed.

Lemma tiof_cases q :
  (exists z, to_int_or_float R (XFin q) = PInt z /\ inject_Z z == q)
  \/ exists f, to_int_or_float R (XFin q) = PFlt f.
Proof.
  simpl. destruct (is_integer q) eqn:E.
  - left. eexists; split; [reflexivity|]. apply is_integer_spec; assumption.
  - right; eauto.
Qed.

Definition float_ok (n : pynum) : Prop := isnan R n = Ok false.

Lemma psub_repr a b :
  0 <= a -> 0 <= b -> representable R (XFin a) -> representable R (XFin b) ->
  exists n v, psub R (to_int_or_float R (XFin a)) (to_int_or_float R (XFin b)) = Ok n
    /\ pynum_x n = Some v
    /\ (b <= a -> xle (XFin 0) v /\ xle v (XFin a) /\ float_ok n)
    /\ (a < b -> ~ xle (XFin 0) v).
Proof.
  intros Ha Hb Ra Rb.
  destruct (to_float_repr a Ra) as (a' & Ea & Qa).
  destruct (to_float_repr b Rb) as (b' & Eb & Qb).
  assert (G : forall u w, to_float R (to_int_or_float R (XFin a)) = u ->
                to_float R (to_int_or_float R (XFin b)) = w ->
     exists n v, (let* x := u in let* y := w in Ok (PFlt (fsub R x y))) = Ok n
    /\ pynum_x n = Some v
    /\ (b <= a -> xle (XFin 0) v /\ xle v (XFin a) /\ float_ok n)
    /\ (a < b -> ~ xle (XFin 0) v)).
  { intros u w Hu Hw. rewrite Ea in Hu. rewrite Eb in Hw. subst. cbn [bind].
    unfold fsub, fneg, xneg, fadd.
    assert (P : xeq (rnd R (a' + - b')) (rnd R (a - b))) by (apply rnd_proper; lra).
    exists (PFlt (FX (rnd R (a' + - b')))), (rnd R (a' + - b')).
    split; [reflexivity|split; [reflexivity|split]].
    - intros L. split; [|split].
      + apply rnd_nonneg. lra.
      + eapply xle_trans; [apply rnd_mono with (y := a); lra|].
        apply xeq_xle. apply representable_fin; assumption.
      + unfold float_ok, isnan. reflexivity.
    - intros L K. apply (rnd_sub_neg R a b).
      + apply representable_fin; assumption.
      + apply representable_fin; assumption.
      + assumption.
      + eapply xle_trans; [exact K|apply xeq_xle; exact P]. }
  destruct (tiof_cases a) as [(za & Eza & Za)|(fa & Efa)];
  destruct (tiof_cases b) as [(zb & Ezb & Zb)|(fb & Efb)].
  - rewrite Eza, Ezb. unfold psub, lift2.
    exists (PInt (za - zb)), (XFin (z2q (za - zb))).
    assert (Zab : inject_Z (za - zb) == a - b).
    { unfold Z.sub. rewrite inject_Z_plus, inject_Z_opp. lra. }
    split; [reflexivity|split; [reflexivity|split]]; unfold z2q; simpl.
    + intros L. split; [|split].
      * rewrite Zab; lra.
      * rewrite Zab; lra.
      * unfold float_ok, isnan. simpl. unfold int_to_float, z2q.
        assert (N : xle (XFin 0) (rnd R (inject_Z (za - zb)))) by (apply rnd_nonneg; lra).
        assert (M : xle (rnd R (inject_Z (za - zb))) (rnd R a)) by (apply rnd_mono; lra).
        apply representable_fin in Ra.
        destruct (rnd R (inject_Z (za - zb))); destruct (rnd R a); simpl in *; try tauto; reflexivity.
    + intros L K. lra.
  - pose proof (G _ _ eq_refl eq_refl) as G'. unfold psub, lift2. rewrite Eza, Efb in *. exact G'.
  - pose proof (G _ _ eq_refl eq_refl) as G'. unfold psub, lift2. rewrite Efa in *. exact G'.
  - pose proof (G _ _ eq_refl eq_refl) as G'. unfold psub, lift2. rewrite Efa in *. exact G'.
Qed.

(** subtracting an infinite amount from a finite one gives minus infinity *)
Lemma psub_inf a : representable R (XFin a) ->
  psub R (to_int_or_float R (XFin a)) (to_int_or_float R XPInf) = Ok (PFlt (FX XNInf)).
Proof.
  intros Ra. destruct (to_float_repr a Ra) as (a' & Ea & _).
  destruct (tiof_cases a) as [(za & E & _)|(fa & E)]; rewrite E in *; unfold psub, lift2;
    rewrite Ea; reflexivity.
Qed.

(** One component of a subtraction: [y] (requested) from [x] (finite). *)
Definition sub_component (x y : xq) : res pynum :=
  psub R (to_int_or_float R x) (to_int_or_float R (adjusted_number y x)).

Lemma sub_component_spec a y :
  0 <= a -> xle (XFin 0) y ->
  representable R (XFin a) -> (y = XPInf \/ representable R y) ->
  exists n v, sub_component (XFin a) y = Ok n /\ pynum_x n = Some v
    /\ (within_tolerance y (XFin a) -> xle (XFin 0) v /\ xle v (XFin a) /\ float_ok n)
    /\ (~ within_tolerance y (XFin a) -> ~ xle (XFin 0) v).
Proof.
  intros Ha Hy Ra Ry. unfold sub_component.
  destruct Ry as [->|Ry].
  - assert (adjusted_number XPInf (XFin a) = XPInf) as -> by reflexivity.
    rewrite psub_inf by assumption. exists (PFlt (FX XNInf)), XNInf. simpl. tauto.
  - pose proof Ry as (b & -> & _). simpl in Hy.
    destruct (adjusted_number_cases (XFin b) (XFin a)) as [[E N]|[E (r & q & E1 & E2 & L & T)]];
      rewrite E.
    + destruct (psub_repr a b Ha Hy Ra Ry) as (n & v & En & Ev & P & Q).
      exists n, v. split; [assumption|split; [assumption|split]].
      * intros W. apply P. simpl in W. destruct W as [W|W]; [assumption|].
        destruct (Qlt_le_dec a b) as [L|L]; [|assumption].
        exfalso; apply N. exists a, b; auto.
      * intros W. apply Q. simpl in W. lra.
    + inversion E1; inversion E2; subst r q.
      destruct (psub_repr a a Ha Ha Ra Ra) as (n & v & En & Ev & P & Q).
      exists n, v. split; [assumption|split; [assumption|split]].
      * intros _. apply P. lra.
      * intros W. exfalso. apply W. simpl. auto.
Qed.

Lemma mk_pure_neg n v : pynum_x n = Some v -> ~ xle (XFin 0) v ->
  forall b, mk_pure R (ANum n) <> Ok b.
Proof.
  intros E N b H. unfold mk_pure in H. apply bind_ok in H as (m & _ & H).
  destruct m; simpl in H; [discriminate|].
  unfold plt in H. rewrite E in H. simpl in H.
  assert (xltb v (XFin (z2q 0)) = true) as X by (apply xltb_iff; exact N).
  rewrite X in H. discriminate.
Qed.

Lemma mk_zcdp_neg n v : pynum_x n = Some v -> ~ xle (XFin 0) v ->
  forall b, mk_zcdp R (ANum n) <> Ok b.
Proof.
  intros E N b H. unfold mk_zcdp in H. apply bind_ok in H as (m & _ & H).
  destruct m; simpl in H; [discriminate|].
  unfold plt in H. rewrite E in H. simpl in H.
  assert (xltb v (XFin (z2q 0)) = true) as X by (apply xltb_iff; exact N).
  rewrite X in H. discriminate.
Qed.

Lemma to_exact_le n v : pynum_x n = Some v -> forall x, to_exact_number R (ANum n) = Ok x -> xle x v.
Proof.
  intros E x H. destruct n as [z|[[q| |]|]]; simpl in *; inversion E; inversion H; subst;
    try apply xle_refl. simpl. apply ffrom_le.
Qed.

Lemma mk_pure_pos n v : pynum_x n = Some v -> xle (XFin 0) v -> float_ok n ->
  exists x, mk_pure R (ANum n) = Ok (Pure x) /\ xle (XFin 0) x /\ xle x v.
Proof.
  intros E N F. assert (nn : nnum n) by (exists v; auto).
  unfold mk_pure. simpl. rewrite F. simpl. rewrite (plt0_nnum n nn). simpl.
  destruct (to_exact_nnum n nn) as (x & Ex & Nx). simpl in Ex.
  pose proof (to_exact_le n v E x Ex) as L. simpl in L. rewrite Ex. simpl. eauto.
Qed.

Lemma mk_zcdp_pos n v : pynum_x n = Some v -> xle (XFin 0) v -> float_ok n ->
  exists x, mk_zcdp R (ANum n) = Ok (Zcdp x) /\ xle (XFin 0) x /\ xle x v.
Proof.
  intros E N F. assert (nn : nnum n) by (exists v; auto).
  unfold mk_zcdp. simpl. rewrite F. simpl. rewrite (plt0_nnum n nn). simpl.
  destruct (to_exact_nnum n nn) as (x & Ex & Nx). simpl in Ex.
  pose proof (to_exact_le n v E x Ex) as L. simpl in L. rewrite Ex. simpl. eauto.
Qed.

Lemma mk_approx_pos n v m w :
  pynum_x n = Some v -> xle (XFin 0) v -> float_ok n ->
  pynum_x m = Some w -> xle (XFin 0) w -> float_ok m -> xle w (XFin 1) ->
  exists x y, mk_approx R (ANum n) (ANum m) = Ok (Approx x y) /\
    xle (XFin 0) x /\ xle x v /\ xle (XFin 0) y /\ xle y w.
Proof.
  intros E N F E' N' F' L. assert (nn : nnum n) by (exists v; auto).
  assert (nm : nnum m) by (exists w; auto).
  unfold mk_approx. unfold arg_isnan, arg_lt_int, arg_gt_int. rewrite F, F'. cbn [bind raise_if].
  rewrite (plt0_nnum n nn), (plt0_nnum m nm). cbn [bind raise_if orb].
  assert (plt (PInt 1) m = false) as ->.
  { unfold plt. simpl. rewrite E'. apply xltb_false. exact L. }
  cbn [bind raise_if].
  destruct (to_exact_nnum n nn) as (x & Ex & Nx).
  destruct (to_exact_nnum m nm) as (y & Ey & Ny).
  pose proof (to_exact_le n v E x Ex). pose proof (to_exact_le m w E' y Ey).
  rewrite Ex, Ey. cbn [bind]. exists x, y; auto.
Qed.

Lemma mk_approx_neg n v m w :
  pynum_x n = Some v -> pynum_x m = Some w -> ~ xle (XFin 0) v \/ ~ xle (XFin 0) w ->
  forall b, mk_approx R (ANum n) (ANum m) <> Ok b.
Proof.
  intros E E' N b H. unfold mk_approx in H. unfold arg_lt_int, arg_gt_int in H.
  apply bind_ok in H as (k & _ & H). destruct k; cbn [bind raise_if] in H; [discriminate|].
  apply bind_ok in H as (k & _ & H). destruct k; cbn [bind raise_if] in H; [discriminate|].
  destruct (plt n (PInt 0)) eqn:X; cbn [bind raise_if] in H; [discriminate|].
  destruct (plt m (PInt 0)) eqn:Y; cbn [bind raise_if orb] in H; [discriminate|].
  unfold plt in X, Y. rewrite E in X. rewrite E' in Y. simpl in X, Y.
  apply xltb_false in X. apply xltb_false in Y. unfold z2q in *. simpl in *.
  change (inject_Z 0) with 0 in *. tauto.
Qed.

Lemma bsub_pure_unfold a y : xle (XFin 0) (XFin a) -> xle (XFin 0) y ->
  bsub R (Pure (XFin a)) (Pure y) = let* n := sub_component (XFin a) y in mk_pure R (ANum n).
Proof.
  intros Ha Hy. cbn [bsub]. unfold is_infinite. cbn [xeqb].
  destruct (adjusted_budget_total (Pure y) (Pure (XFin a)) Hy Ha I) as (c & Hc).
  pose proof Hc as Hc'. rewrite Hc. cbn [adjusted_budget] in Hc'. unfold mk_pure in Hc' at 1.
  simpl in Hc'. destruct (xltb _ _); simpl in Hc'; inversion Hc'; subst. reflexivity.
Qed.

Lemma bsub_zcdp_unfold a y : xle (XFin 0) (XFin a) -> xle (XFin 0) y ->
  bsub R (Zcdp (XFin a)) (Zcdp y) = let* n := sub_component (XFin a) y in mk_zcdp R (ANum n).
Proof.
  intros Ha Hy. cbn [bsub]. unfold is_infinite. cbn [xeqb].
  destruct (adjusted_budget_total (Zcdp y) (Zcdp (XFin a)) Hy Ha I) as (c & Hc).
  pose proof Hc as Hc'. rewrite Hc. cbn [adjusted_budget] in Hc'. unfold mk_zcdp in Hc' at 1.
  simpl in Hc'. destruct (xltb _ _); simpl in Hc'; inversion Hc'; subst. reflexivity.
Qed.

Lemma bsub_approx_unfold e d e' d' :
  valid (Approx e d) -> valid (Approx e' d') -> ~ infinite (Approx e d) ->
  bsub R (Approx e d) (Approx e' d') =
    let* n := sub_component e e' in let* m := sub_component d d' in mk_approx R (ANum n) (ANum m).
Proof.
  intros Va Vb NI. cbn [bsub]. unfold approx_sub.
  apply is_infinite_false in NI. rewrite NI.
  destruct (adjusted_budget_total (Approx e' d') (Approx e d) Vb Va I) as (c & Hc).
  pose proof Hc as Hc'. rewrite Hc. cbn [adjusted_budget] in Hc'. unfold mk_approx in Hc' at 1.
  simpl in Hc'. destruct (xltb _ _); simpl in Hc'; [discriminate|].
  destruct (xltb _ _); simpl in Hc'; [discriminate|].
  destruct (xltb _ _); simpl in Hc'; inversion Hc'; subst. reflexivity.
Qed.

(** The requested amounts are ordinary floats or infinity. *)
Definition plain (x : xq) : Prop := x = XPInf \/ representable R x.

Definition plain_budget (b : budget) : Prop :=
  match b with Pure x | Zcdp x => plain x | Approx x y => plain x /\ plain y end.

(** b can be taken from a, up to the tolerance, in every component. *)
Definition takeable (b a : budget) : Prop :=
  match b, a with
  | Pure y, Pure x | Zcdp y, Zcdp x => within_tolerance y x
  | Approx y d', Approx x d => within_tolerance y x /\ within_tolerance d' d
  | _, _ => False
  end.

Lemma plain_fin q : plain (XFin q) -> representable R (XFin q).
Proof. intros [H|H]; [discriminate|assumption]. Qed.

Lemma bsub_spec a b :
  valid a -> valid b -> same_kind a b -> ~ infinite a -> plain_budget a -> plain_budget b ->
  ((exists c, bsub R a b = Ok c) <-> takeable b a)
  /\ (forall c, bsub R a b = Ok c -> valid c /\ ble c a).
Proof.
  destruct a as [x|e d|x], b as [y|e' d'|y]; cbn [same_kind]; try tauto.
  - intros Va Vb _ NI Pa Pb. cbn [valid infinite plain_budget takeable ble] in *.
    destruct (nonneg_cases _ Va) as [(q & -> & Hq)| ->]; [|exfalso; apply NI; reflexivity].
    destruct (sub_component_spec q y Hq Vb (plain_fin _ Pa) Pb) as (n & v & En & Ev & W & NW).
    rewrite (bsub_pure_unfold q y Va Vb). rewrite En. cbn [bind].
    assert (D : within_tolerance y (XFin q) \/ ~ within_tolerance y (XFin q)).
    { destruct y as [r| |]; simpl; try tauto. lra. }
    destruct D as [D|D].
    + destruct (W D) as (A & B & C). destruct (mk_pure_pos n v Ev A C) as (z & Ez & Z0 & Zv).
      rewrite Ez. split; [split; eauto|]. intros c E. inversion E; subst. simpl.
      split; [assumption|]. eapply xle_trans; eassumption.
    + specialize (NW D). pose proof (mk_pure_neg n v Ev NW) as X. split.
      * split; [intros (c & H); exfalso; eapply X; eassumption|tauto].
      * intros c H; exfalso; eapply X; eassumption.
  - intros Va Vb _ NI Pa Pb.
    rewrite (bsub_approx_unfold e d e' d' Va Vb NI).
    destruct Va as (A0 & B0 & C0), Vb as (A1 & B1 & C1), Pa as (P1 & P2), Pb as (P3 & P4).
    simpl in NI.
    destruct (nonneg_cases _ A0) as [(q & -> & Hq)| ->]; [|exfalso; apply NI; auto].
    destruct (nonneg_cases _ B0) as [(r & -> & Hr)| ->]; [|simpl in C0; tauto].
    destruct (sub_component_spec q e' Hq A1 (plain_fin _ P1) P3) as (n & v & En & Ev & W & NW).
    destruct (sub_component_spec r d' Hr B1 (plain_fin _ P2) P4) as (m & w & Em & Ew & W' & NW').
    rewrite En. cbn [bind]. rewrite Em. cbn [bind takeable].
    assert (D : forall y q, within_tolerance y (XFin q) \/ ~ within_tolerance y (XFin q)).
    { intros y q'. destruct y as [r'| |]; simpl; try tauto. lra. }
    destruct (D e' q) as [D1|D1]; destruct (D d' r) as [D2|D2].
    + destruct (W D1) as (a1 & a2 & a3), (W' D2) as (b1 & b2 & b3).
      destruct (mk_approx_pos n v m w Ev a1 a3 Ew b1 b3) as (x & y & E & x0 & xv & y0 & yw).
      { eapply xle_trans; eassumption. }
      rewrite E. split; [split; eauto|]. intros c Hc. inversion Hc; subst. simpl.
      assert (xle y (XFin r)) by (eapply xle_trans; eassumption).
      assert (xle x (XFin q)) by (eapply xle_trans; eassumption).
      repeat split; auto. eapply xle_trans; eassumption.
    + pose proof (mk_approx_neg n v m w Ev Ew (or_intror (NW' D2))) as X. split.
      * split; [intros (c & H); exfalso; eapply X; eassumption|tauto].
      * intros c H; exfalso; eapply X; eassumption.
    + pose proof (mk_approx_neg n v m w Ev Ew (or_introl (NW D1))) as X. split.
      * split; [intros (c & H); exfalso; eapply X; eassumption|tauto].
      * intros c H; exfalso; eapply X; eassumption.
    + pose proof (mk_approx_neg n v m w Ev Ew (or_introl (NW D1))) as X. split.
      * split; [intros (c & H); exfalso; eapply X; eassumption|tauto].
      * intros c H; exfalso; eapply X; eassumption.
  - intros Va Vb _ NI Pa Pb. cbn [valid infinite plain_budget takeable ble] in *.
    destruct (nonneg_cases _ Va) as [(q & -> & Hq)| ->]; [|exfalso; apply NI; reflexivity].
    destruct (sub_component_spec q y Hq Vb (plain_fin _ Pa) Pb) as (n & v & En & Ev & W & NW).
    rewrite (bsub_zcdp_unfold q y Va Vb). rewrite En. cbn [bind].
    assert (D : within_tolerance y (XFin q) \/ ~ within_tolerance y (XFin q)).
    { destruct y as [r| |]; simpl; try tauto. lra. }
    destruct D as [D|D].
    + destruct (W D) as (A & B & C). destruct (mk_zcdp_pos n v Ev A C) as (z & Ez & Z0 & Zv).
      rewrite Ez. split; [split; eauto|]. intros c E. inversion E; subst. simpl.
      split; [assumption|]. eapply xle_trans; eassumption.
    + specialize (NW D). pose proof (mk_zcdp_neg n v Ev NW) as X. split.
      * split; [intros (c & H); exfalso; eapply X; eassumption|tauto].
      * intros c H; exfalso; eapply X; eassumption.
Qed.

End Proofs.
