(** A definition of closeness that has the laws: finite distributions with rational weights,
    and the budget as a bound on how much smaller an expectation can get. *)
From Coq Require Import String Bool Arith ZArith QArith Qcanon Lia Lqa Permutation List.
From Verif Require Import Prelude Budget BudgetProofs Value Rows Session SessionSpec SessionMoney Measure Transform PrivacySpec.
Import ListNotations.
Local Open Scope Q_scope.

(** The expectation of [g]. *)
Fixpoint expect {A} (g : A -> Q) (d : list (A * Q)) : Q :=
  match d with [] => 0 | x :: d => snd x * g (fst x) + expect g d end.
Definition weights {A} (d : list (A * Q)) : Prop := (forall x, In x d -> 0 <= snd x) /\ expect (fun _ => 1) d <= 1.
Definition finite_dist (A : Type) : Type := {d : list (A * Q) | weights d}.
Definition mean {A} (g : A -> Q) (d : finite_dist A) : Q := expect g (proj1_sig d).

Section Expect.
Context {A : Type}.
Implicit Types (d : list (A * Q)) (g h : A -> Q).
Lemma expect_mono g h d : (forall x, In x d -> 0 <= snd x) -> (forall a, g a <= h a) -> expect g d <= expect h d.
Proof.
  intros P L. induction d as [|x d IH]; cbn [expect]; [lra|].
  assert (expect g d <= expect h d) by (apply IH; intros y I; apply P; right; exact I). pose proof (P x (or_introl eq_refl)). pose proof (L (fst x)). nra.
Qed.
Lemma expect_ext g h d : (forall a, g a == h a) -> expect g d == expect h d.
Proof. intros L. induction d as [|x d IH]; cbn [expect]; [lra|]. rewrite IH, (L (fst x)). reflexivity. Qed.
Lemma expect_scale c g d : expect (fun a => c * g a) d == c * expect g d.
Proof. induction d as [|x d IH]; cbn [expect]; [lra|]. rewrite IH. ring. Qed.
Lemma expect_shift c g d : expect (fun a => g a + c) d == expect g d + c * expect (fun _ => 1) d.
Proof. induction d as [|x d IH]; cbn [expect]; [lra|]. rewrite IH. ring. Qed.
Lemma expect_app g d d' : expect g (d ++ d') == expect g d + expect g d'.
Proof. induction d as [|x d IH]; cbn [expect app]; [lra|]. rewrite IH. ring. Qed.
Lemma expect_0 g d : (forall x, In x d -> 0 <= snd x) -> (forall a, 0 <= g a) -> 0 <= expect g d.
Proof. intros P L. induction d as [|x d IH]; cbn [expect]; [lra|]. assert (0 <= expect g d) by (apply IH; intros y I; apply P; right; exact I). pose proof (P x (or_introl eq_refl)). pose proof (L (fst x)). nra. Qed.
End Expect.

Definition sure {A} (a : A) : finite_dist A.
Proof. exists [(a, 1)]. split; [intros x [<-|[]]; cbn; lra|cbn; lra]. Defined.
Definition bind_list {A B} (d : list (A * Q)) (f : A -> list (B * Q)) : list (B * Q) :=
  flat_map (fun x => map (fun y => (fst y, snd x * snd y)) (f (fst x))) d.
Lemma expect_bind {A B} (d : list (A * Q)) (f : A -> list (B * Q)) g : expect g (bind_list d f) == expect (fun a => expect g (f a)) d.
Proof.
  induction d as [|x d IH]; cbn [expect]; [reflexivity|]. unfold bind_list in *. cbn [flat_map]. rewrite expect_app, IH.
  assert (M : forall l : list (B * Q), expect g (map (fun y => (fst y, snd x * snd y)) l) == snd x * expect g l).
  { clear. intros l. induction l as [|y l IH]; cbn [expect map fst snd]; [ring|]. rewrite IH. ring. }
  rewrite M. reflexivity.
Qed.
Lemma bind_weights {A B} (d : finite_dist A) (f : A -> finite_dist B) : weights (bind_list (proj1_sig d) (fun a => proj1_sig (f a))).
Proof.
  destruct d as (d & P & T). cbn [proj1_sig]. split.
  - intros x I. unfold bind_list in I. apply in_flat_map in I as (y & Y & I). apply in_map_iff in I as (z & <- & Z). cbn [snd]. pose proof (P y Y). pose proof (proj1 (proj2_sig (f (fst y))) z Z). nra.
  - rewrite expect_bind. assert (expect (fun a => expect (fun _ => 1) (proj1_sig (f a))) d <= expect (fun _ => 1) d) by (apply expect_mono; [exact P|intros a; apply (proj2_sig (f a))]). lra.
Qed.
Definition then_ {A B} (d : finite_dist A) (f : A -> finite_dist B) : finite_dist B := exist _ _ (bind_weights d f).
Lemma mean_then {A B} (d : finite_dist A) (f : A -> finite_dist B) g : mean g (then_ d f) == mean (fun a => mean g (f a)) d.
Proof. apply expect_bind. Qed.

Definition test {A} (g : A -> Q) : Prop := forall a, 0 <= g a <= 1.
Lemma mean_test {A} (g : A -> Q) d : test g -> 0 <= mean g d <= 1.
Proof.
  intros T. destruct d as (d & P & W). unfold mean. cbn [proj1_sig]. split; [apply expect_0; [exact P|apply T]|].
  assert (expect g d <= expect (fun _ => 1) d) by (apply expect_mono; [exact P|apply T]). lra.
Qed.
(** Negative losses count as zero. *)
Definition cap (q : Q) : Q := if Qle_bool 0 q then q else 0.
Lemma cap_0 q : 0 <= cap q. Proof. unfold cap. destruct (Qle_bool 0 q) eqn:L; [apply Qle_bool_iff in L; exact L|lra]. Qed.
Lemma cap_le p q : p <= q -> cap p <= cap q.
Proof. unfold cap. intros H. destruct (Qle_bool 0 p) eqn:L, (Qle_bool 0 q) eqn:M; try lra; try (apply Qle_bool_iff in L); try (apply Qle_bool_iff in M); try lra. assert (Qle_bool 0 q = true) by (apply Qle_bool_iff; lra). congruence. Qed.
Lemma cap_id q : 0 <= q -> cap q = q. Proof. intros H. unfold cap. apply Qle_bool_iff in H. now rewrite H. Qed.
Definition within (e dl : Q) {A} (d d' : finite_dist A) : Prop :=
  forall g, test g -> (1 - e) * mean g d <= mean g d' + dl /\ (1 - e) * mean g d' <= mean g d + dl.
(** The loss and the delta, when they are not infinite. *)
Definition amount (x : xq) : option Q := match x with XFin q => Some (cap q) | XPInf => None | XNInf => Some 0 end.
Definition near (b : budget) {A} (d d' : finite_dist A) : Prop :=
  match amount (loss b), amount (delta b) with Some e, Some dl => within e dl d d' | _, _ => True end.

Lemma within_same e dl A (d : finite_dist A) : 0 <= e -> 0 <= dl -> within e dl d d.
Proof. intros P Q g T. destruct (mean_test g d T). split; nra. Qed.
Lemma within_more e dl e' dl' A (d d' : finite_dist A) : e <= e' -> dl <= dl' -> within e dl d d' -> within e' dl' d d'.
Proof. intros P Q H g T. destruct (H g T), (mean_test g d T), (mean_test g d' T). split; nra. Qed.
Lemma within_after e dl A B (d : finite_dist A) (f f' : A -> finite_dist B) : 0 <= e -> 0 <= dl -> (forall a, within e dl (f a) (f' a)) -> within e dl (then_ d f) (then_ d f').
Proof.
  intros P Q H g T. rewrite !mean_then. destruct d as (d & PW & W). unfold mean at 1 3 5 7. cbn [proj1_sig].
  assert (X : forall f f' : A -> finite_dist B, (forall a, within e dl (f a) (f' a)) -> (1 - e) * expect (fun a => mean g (f a)) d <= expect (fun a => mean g (f' a)) d + dl).
  { clear f f' H. intros f f' H. rewrite <- expect_scale. assert (expect (fun a => (1 - e) * mean g (f a)) d <= expect (fun a => mean g (f' a) + dl) d) by (apply expect_mono; [exact PW|intros a; apply (H a g T)]).
    rewrite expect_shift in H0. assert (0 <= expect (fun _ : A => 1) d) by (apply expect_0; [exact PW|intros; lra]). nra. }
  split; apply X; [exact H|]. intros a g0 T0. split; apply (H a g0 T0).
Qed.
Lemma within_then e dl e' dl' A B (d d' : finite_dist A) (f f' : A -> finite_dist B) : 0 <= e -> 0 <= dl -> 0 <= e' -> 0 <= dl' ->
  within e dl d d' -> (forall a, within e' dl' (f a) (f' a)) -> within (e + e') (dl + dl') (then_ d f) (then_ d' f').
Proof.
  intros P1 P2 P3 P4 H K g T.
  assert (X : forall (d d' : finite_dist A) (f f' : A -> finite_dist B), within e dl d d' -> (forall a, within e' dl' (f a) (f' a)) -> (1 - (e + e')) * mean g (then_ d f) <= mean g (then_ d' f') + (dl + dl')).
  { clear - P1 P2 P3 P4 T. intros d d' f f' H K. rewrite !mean_then.
    assert (TF : forall f : A -> finite_dist B, test (fun a => mean g (f a))) by (intros f0 a; apply mean_test; exact T).
    destruct (H _ (TF f')) as (H1 & _). destruct (mean_test _ d (TF f)) as (L & U). destruct (mean_test _ d' (TF f')) as (L' & U'). destruct (mean_test _ d (TF f')) as (L2 & U2).
    assert (M : (1 - e') * mean (fun a => mean g (f a)) d <= mean (fun a => mean g (f' a)) d + dl').
    { destruct d as (d & PW & W). unfold mean at 1 3. cbn [proj1_sig]. rewrite <- expect_scale.
      assert (Y : expect (fun a => (1 - e') * mean g (f a)) d <= expect (fun a => mean g (f' a) + dl') d) by (apply expect_mono; [exact PW|intros a; apply (K a g T)]).
      rewrite expect_shift in Y. assert (0 <= expect (fun _ : A => 1) d) by (apply expect_0; [exact PW|intros; lra]). nra. }
    destruct (Qlt_le_dec 1 e) as [G|G]; [|destruct (Qlt_le_dec 1 e') as [G'|G']].
    - assert ((1 - (e + e')) * mean (fun a => mean g (f a)) d <= 0) by nra. lra.
    - assert ((1 - (e + e')) * mean (fun a => mean g (f a)) d <= 0) by nra. lra.
    - set (x := mean (fun a => mean g (f a)) d) in *. set (y := mean (fun a => mean g (f' a)) d) in *. set (z := mean (fun a => mean g (f' a)) d') in *.
      assert ((1 - e) * ((1 - e') * x) <= (1 - e) * (y + dl')) by nra. assert ((1 - e) * dl' <= dl') by nra. assert (0 <= e * e' * x) by (apply Qmult_le_0_compat; [nra|exact L]). nra. }
  split; apply X; try assumption; [intros g0 T0; split; apply (H g0 T0)|intros a g0 T0; split; apply (K a g0 T0)].
Qed.

Lemma amount_0 x q : amount x = Some q -> 0 <= q.
Proof. destruct x; cbn; intros H; inversion H; [apply cap_0|lra]. Qed.
Lemma amount_le x y q : xle x y -> amount y = Some q -> exists p, amount x = Some p /\ p <= q.
Proof.
  destruct x, y; cbn; intros L H; try contradiction; inversion H; subst; try (eexists; split; [reflexivity|]); try lra; [apply cap_le; exact L|apply cap_0].
Qed.
Lemma ble_loss b c : ble b c -> xle (loss b) (loss c) /\ xle (delta b) (delta c).
Proof. destruct b, c; cbn; try tauto; intros; split; auto; lra. Qed.
Lemma amount_sum x y z q : xle (XFin 0) x -> xle (XFin 0) y -> xeq (xadd x y) z -> amount z = Some q -> exists a b, amount x = Some a /\ amount y = Some b /\ a + b == q.
Proof.
  destruct x, y, z; cbn; intros X Y S H; try contradiction; inversion H; subst. exists (cap q0), (cap q1). split; [reflexivity|]. split; [reflexivity|].
  rewrite !cap_id by lra. lra.
Qed.
Lemma near_same b A (d : finite_dist A) : valid b -> near b d d.
Proof.
  intros _. unfold near. destruct (amount (loss b)) as [e|] eqn:L; [|exact I]. destruct (amount (delta b)) as [dl|] eqn:D; [|exact I].
  apply within_same; eapply amount_0; eassumption.
Qed.
Lemma near_more b c A (d d' : finite_dist A) : ble b c -> near b d d' -> near c d d'.
Proof.
  intros L N. apply ble_loss in L as (L & D). unfold near in *. destruct (amount (loss c)) as [e|] eqn:LC; [|exact I]. destruct (amount (delta c)) as [dl|] eqn:DC; [|exact I].
  destruct (amount_le _ _ _ L LC) as (e' & E & LE). destruct (amount_le _ _ _ D DC) as (dl' & E' & LE'). rewrite E, E' in N. eapply within_more; eassumption.
Qed.
Lemma near_after b A B (d : finite_dist A) (f f' : A -> finite_dist B) : valid b -> (forall a, near b (f a) (f' a)) -> near b (then_ d f) (then_ d f').
Proof.
  intros _ N. unfold near in *. destruct (amount (loss b)) as [e|] eqn:L; [|exact I]. destruct (amount (delta b)) as [dl|] eqn:D; [|exact I].
  apply within_after; [eapply amount_0; eassumption|eapply amount_0; eassumption|exact N].
Qed.
Lemma near_infinite b A (d d' : finite_dist A) : infinite b -> near b d d'.
Proof.
  intros H. unfold near. destruct b as [e|e dl|e]; cbn [loss delta infinite] in *; [subst e; exact I| |subst e; exact I]. destruct H as [->|H]; [exact I|].
  destruct (amount e) as [p|] eqn:L; [|exact I]. destruct dl as [q| |]; cbn in H; try contradiction. cbn [amount]. rewrite cap_id by lra.
  intros g T. destruct (mean_test g d T), (mean_test g d' T). pose proof (amount_0 _ _ L). split; nra.
Qed.
Lemma near_then left b rest A B (d d' : finite_dist A) (f f' : A -> finite_dist B) : valid left -> valid b -> spend left b = Some rest ->
  near b d d' -> (forall a, near rest (f a) (f' a)) -> near left (then_ d f) (then_ d' f').
Proof.
  intros VL VB SP N NF. destruct (is_infinite left) eqn:IL; [apply near_infinite, is_infinite_iff, IL|].
  assert (KD : same_kind left b) by (unfold spend in SP; rewrite IL in SP; destruct left, b; try discriminate; exact I).
  destruct (spend_spec left b rest VL VB KD SP) as [(IN & _)|(_ & _ & VR & _ & SUM)]; [apply near_infinite, IN|].
  unfold near in *. destruct (amount (loss left)) as [e|] eqn:L; [|exact I]. destruct (amount (delta left)) as [dl|] eqn:D; [|exact I].
  destruct (amount_sum _ _ _ _ (loss_nonneg _ VR) (loss_nonneg _ VB) (SUM loss (or_introl eq_refl)) L) as (e1 & e2 & E1 & E2 & ES).
  destruct (amount_sum _ _ _ _ (delta_nonneg _ VR) (delta_nonneg _ VB) (SUM delta (or_intror eq_refl)) D) as (d1 & d2 & D1 & D2 & DS).
  rewrite E1, D1 in NF. rewrite E2, D2 in N. apply (within_more (e2 + e1) (d2 + d1)); [lra|lra|].
  apply within_then; try assumption; eapply amount_0; eassumption.
Qed.
Definition nearness : closeness :=
  {| dist := finite_dist; ret := @sure; dbind := @then_; close := @near;
     close_same := near_same; close_more := near_more; close_after := near_after; close_bind := near_then |}.

(** ** Randomised response *)
(** Two answers; the right one is more likely by what the budget allows. *)
Definition lean (x : xq) : Q := match x with XFin q => if Qle_bool q 0 then 0 else if Qle_bool 1 q then 1 else q | XPInf => 1 | XNInf => 0 end.
Lemma lean_01 x : 0 <= lean x <= 1.
Proof.
  destruct x as [q| |]; cbn; try lra. destruct (Qle_bool q 0) eqn:L; [lra|]. destruct (Qle_bool 1 q) eqn:M; [lra|].
  assert (~ q <= 0) by (intros H; apply Qle_bool_iff in H; congruence). assert (~ 1 <= q) by (intros H1; apply Qle_bool_iff in H1; congruence). lra.
Qed.
Lemma lean_amount x e : amount x = Some e -> lean x <= e.
Proof.
  destruct x as [q| |]; cbn; intros H; inversion H; subst; try lra. unfold cap. destruct (Qle_bool q 0) eqn:L; [destruct (Qle_bool 0 q) eqn:M; [apply Qle_bool_iff in M; exact M|lra]|].
  assert (~ q <= 0) by (intros X; apply Qle_bool_iff in X; congruence). assert (M : Qle_bool 0 q = true) by (apply Qle_bool_iff; lra). rewrite M. destruct (Qle_bool 1 q) eqn:O; [apply Qle_bool_iff in O; exact O|lra].
Qed.
Definition respond {A} (x : xq) (truth : bool) (yes no : A) : finite_dist A.
Proof.
  exists (let w := 1 # 2 in let v := lean x * (1 # 4) in if truth then [(yes, w + v); (no, w - v)] else [(yes, w - v); (no, w + v)]).
  destruct (lean_01 x). split; destruct truth; cbn [expect fst snd]; try (intros y [<-|[<-|[]]]; cbn [snd]; lra); lra.
Defined.
Lemma respond_near A b (u v : bool) (yes no : A) : near b (respond (loss b) u yes no) (respond (loss b) v yes no).
Proof.
  unfold near. destruct (amount (loss b)) as [e|] eqn:L; [|exact I]. destruct (amount (delta b)) as [dl|] eqn:D; [|exact I].
  pose proof (lean_amount _ _ L) as LE. destruct (lean_01 (loss b)) as (L0 & L1). pose proof (amount_0 _ _ L). pose proof (amount_0 _ _ D).
  set (w := lean (loss b)) in *. intros g T. destruct (T yes), (T no). unfold mean, respond. cbn [proj1_sig]. fold w.
  assert (X : (1 - e) * ((1 # 2) + w * (1 # 4)) <= (1 # 2) - w * (1 # 4)) by nra.
  assert (Y : (1 - e) * ((1 # 2) - w * (1 # 4)) <= (1 # 2) - w * (1 # 4)) by nra.
  assert (Z : (1 - e) * ((1 # 2) - w * (1 # 4)) <= (1 # 2) + w * (1 # 4)) by nra.
  assert (V : (1 - e) * ((1 # 2) + w * (1 # 4)) <= (1 # 2) + w * (1 # 4)) by nra.
  destruct u, v; cbn [expect fst snd]; split; nra.
Qed.
