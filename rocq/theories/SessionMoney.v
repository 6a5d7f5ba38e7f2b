(** Budgets of sessions and their descendants over all histories. *)
From Coq Require Import String Bool Arith ZArith QArith Qabs Lqa Lia Permutation List.
From Verif Require Import Prelude Budget BudgetProofs Value Rows Constraints Schema Query Transform Tables TablesProofs
  Accountant AccountantProofs Session SessionSpec.
Import ListNotations.
Local Open Scope string_scope.
Local Open Scope nat_scope.

(** ** Numbers *)

Ltac xq_solve := repeat match goal with x : xq |- _ => destruct x end; cbn in *; try tauto; try reflexivity; try (exfalso; assumption); try lra.
Lemma xadd_mono a a' b b' : xle a a' -> xle b b' -> xle (xadd a b) (xadd a' b').
Proof. intros; xq_solve. Qed.
Lemma xadd_xeq a a' b b' : xeq a a' -> xeq b b' -> xeq (xadd a b) (xadd a' b').
Proof. intros; xq_solve. Qed.
Lemma xadd_assoc a b c : xeq (xadd a (xadd b c)) (xadd (xadd a b) c).
Proof. xq_solve. Qed.
Lemma xadd_comm a b : xeq (xadd a b) (xadd b a).
Proof. xq_solve. Qed.
Lemma xadd_0_l a : xeq (xadd (XFin 0) a) a.
Proof. xq_solve. Qed.
Lemma xadd_0_r a : xeq (xadd a (XFin 0)) a.
Proof. xq_solve. Qed.
Lemma xle_xeq a a' b b' : xeq a a' -> xeq b b' -> xle a b -> xle a' b'.
Proof. intros; xq_solve. Qed.
Lemma xadd_nonneg a b : xle (XFin 0) a -> xle (XFin 0) b -> xle (XFin 0) (xadd a b).
Proof. intros; xq_solve. Qed.
Lemma xle_add_l a b : xle (XFin 0) a -> xle b (xadd a b).
Proof. intros; xq_solve. Qed.
Lemma xle_add_r a b : xle (XFin 0) b -> xle a (xadd a b).
Proof. intros; xq_solve. Qed.
Lemma xsum_app l l' : xeq (xsum (l ++ l')) (xadd (xsum l) (xsum l')).
Proof.
  induction l as [|x l IH]; cbn [app xsum fold_right]; [apply xeq_sym, xadd_0_l|]. fold (xsum (l ++ l')). fold (xsum l).
  eapply xeq_trans; [apply xadd_xeq; [apply xeq_refl|exact IH]|]. apply xadd_assoc.
Qed.
Lemma xsum_nonneg l : (forall x, In x l -> xle (XFin 0) x) -> xle (XFin 0) (xsum l).
Proof.
  induction l as [|x l IH]; intros H; [apply xle_refl|]. cbn [xsum fold_right]. apply xadd_nonneg; [apply H; now left|apply IH; intros y I; apply H; now right].
Qed.
Lemma xsum_ge l x : (forall x, In x l -> xle (XFin 0) x) -> In x l -> xle x (xsum l).
Proof.
  induction l as [|y l IH]; intros H I; [destruct I|]. cbn [xsum fold_right]. destruct I as [<-|I].
  - apply xle_add_r, xsum_nonneg. intros z J. apply H. now right.
  - eapply xle_trans; [apply IH; [|exact I]|apply xle_add_l, H; now left]. intros z J. apply H. now right.
Qed.
Lemma xmax_le a b c : xle a c -> xle b c -> xle (xmax a b) c.
Proof. unfold xmax. destruct (xleb a b); auto. Qed.
Lemma xmax_nonneg a b : xle (XFin 0) b -> xle (XFin 0) (xmax a b).
Proof.
  intros B. unfold xmax. destruct (xleb a b) eqn:X; [exact B|]. destruct (xle_total (XFin 0) a) as [H|H]; [exact H|]. exfalso.
  assert (xleb a b = true) by (apply xleb_iff; eapply xle_trans; [exact H|exact B]). congruence.
Qed.
Lemma xmaximum_le l c : xle (XFin 0) c -> (forall x, In x l -> xle x c) -> xle (xmaximum l) c.
Proof.
  induction l as [|x l IH]; intros Z H; [exact Z|]. cbn [xmaximum fold_right]. apply xmax_le; [apply H; now left|]. apply IH; [exact Z|]. intros y I. apply H. now right.
Qed.

(** ** Spending *)

Section Money.
Variable E : env.

Lemma loss_nonneg b : valid b -> xle (XFin 0) (loss b). Proof. destruct b; cbn; tauto. Qed.
Lemma delta_nonneg b : valid b -> xle (XFin 0) (delta b). Proof. destruct b; cbn; try tauto; intros; lra. Qed.
(** The two components. *)
Definition component (f : budget -> xq) : Prop := f = loss \/ f = delta.
Lemma component_nonneg f b : component f -> valid b -> xle (XFin 0) (f b).
Proof. intros [-> | ->]; [apply loss_nonneg|apply delta_nonneg]. Qed.

Lemma xminus_spec x y : xle (XFin 0) y -> xle y x -> x <> XPInf -> xle (XFin 0) (xminus x y) /\ xeq (xadd (xminus x y) y) x /\ xle (xminus x y) x /\ xminus x y <> XPInf.
Proof. intros; repeat split; xq_solve; discriminate. Qed.
Lemma spend_spec l b r : valid l -> valid b -> same_kind l b -> spend l b = Some r ->
  (infinite l /\ r = l) \/
  (~ infinite l /\ ~ infinite r /\ valid r /\ same_kind l r
   /\ forall f, component f -> xeq (xadd (f r) (f b)) (f l)).
Proof.
  intros VL VB K H. unfold spend in H. destruct (is_infinite l) eqn:I.
  - left. injection H as <-. split; [now apply is_infinite_iff|reflexivity].
  - right. apply is_infinite_false in I. split; [exact I|].
    destruct l as [x|x d|x], b as [y|y d'|y]; try contradiction; cbn [valid infinite] in *.
    + destruct (xleb y x) eqn:L; [|discriminate]. injection H as <-. apply xleb_iff in L.
      destruct (xminus_spec x y VB L I) as (A & B & C & D). split; [exact D|]. split; [exact A|]. split; [exact Logic.I|].
      intros f [-> | ->]; [exact B|]. cbn. lra.
    + destruct (xleb y x && xleb d' d) eqn:L; [|discriminate]. injection H as <-. apply andb_prop in L as (L & L'). apply xleb_iff in L, L'.
      destruct VL as (V1 & V2 & V3), VB as (V4 & V5 & V6).
      assert (Nd : d <> XPInf) by (intros ->; destruct V3).
      assert (Nx : x <> XPInf) by tauto.
      destruct (xminus_spec x y V4 L Nx) as (A & B & C & D). destruct (xminus_spec d d' V5 L' Nd) as (A' & B' & C' & D').
      split; [intros [X|X]; [exact (D X)|]|].
      * apply I. right. apply xle_antisym; [exact V3|]. eapply xle_trans; [apply xeq_xle, xeq_sym, X|exact C'].
      * split; [repeat split; [exact A|exact A'|eapply xle_trans; [exact C'|exact V3]]|]. split; [exact Logic.I|]. intros f [-> | ->]; assumption.
    + destruct (xleb y x) eqn:L; [|discriminate]. injection H as <-. apply xleb_iff in L.
      destruct (xminus_spec x y VB L I) as (A & B & C & D). split; [exact D|]. split; [exact A|]. split; [exact Logic.I|].
      intros f [-> | ->]; [exact B|]. cbn. lra.
Qed.

Lemma mk_pure_kind R a b : mk_pure R a = Ok b -> exists x, b = Pure x.
Proof. unfold mk_pure. intros H. repeat (apply bind_ok in H as (? & _ & H)). inversion H. eauto. Qed.
Lemma mk_approx_kind R a d b : mk_approx R a d = Ok b -> exists x y, b = Approx x y.
Proof. unfold mk_approx. intros H. repeat (apply bind_ok in H as (? & _ & H)). inversion H. eauto. Qed.
Lemma mk_zcdp_kind R a b : mk_zcdp R a = Ok b -> exists x, b = Zcdp x.
Proof. unfold mk_zcdp. intros H. repeat (apply bind_ok in H as (? & _ & H)). inversion H. eauto. Qed.
Lemma adjusted_valid R a b c : adjusted_budget R a b = Ok c -> valid c /\ same_kind a c.
Proof.
  intros H. destruct a, b; unfold adjusted_budget in H; try discriminate H.
  - split; [eapply mk_pure_valid; exact H|]. apply mk_pure_kind in H as (? & ->). exact I.
  - split; [eapply mk_approx_valid; exact H|]. apply mk_approx_kind in H as (? & ? & ->). exact I.
  - split; [eapply mk_zcdp_valid; exact H|]. apply mk_zcdp_kind in H as (? & ->). exact I.
Qed.
Lemma process_valid l b c : process_budget E l b = Ok c -> valid c /\ same_kind b c.
Proof.
  unfold process_budget. destruct b as [e|e d|r].
  - destruct l; try discriminate; intros H; apply bind_ok in H as (rem & _ & H); exact (adjusted_valid _ _ _ _ H).
  - destruct (is_infinite (Approx e d)).
    + intros H. split; [eapply mk_approx_valid; exact H|]. apply mk_approx_kind in H as (? & ? & ->). exact I.
    + destruct l; try discriminate. intros H. apply bind_ok in H as (req & Hq & H). apply bind_ok in H as (rem & _ & H).
      destruct (adjusted_valid _ _ _ _ H) as (V & K). split; [exact V|].
      apply mk_approx_kind in Hq as (x & y & ->). exact K.
  - destruct l; try discriminate; intros H; apply bind_ok in H as (rem & _ & H); exact (adjusted_valid _ _ _ _ H).
Qed.
Lemma validate_kind l b u : validate_type l b = Ok u -> same_kind l b.
Proof. destruct l, b; cbn; try discriminate; auto. Qed.
Lemma same_kind_trans a b c : same_kind a b -> same_kind b c -> same_kind a c.
Proof. destruct a, b, c; cbn; tauto. Qed.
Lemma same_kind_sym a b : same_kind a b -> same_kind b a.
Proof. destruct a, b; cbn; tauto. Qed.
Lemma same_kind_refl a : same_kind a a.
Proof. destruct a; cbn; tauto. Qed.
Lemma compile_adj s pub q b adj : compile_and_get_info E s pub q b = Ok adj -> valid adj /\ same_kind (s_left s) adj.
Proof.
  unfold compile_and_get_info. intros H. apply bind_ok in H as (b1 & _ & H). apply bind_ok in H as (u & V & H). apply bind_ok in H as (? & _ & H).
  apply bind_ok in H as (adj' & P & H). apply bind_ok in H as (? & _ & H). apply bind_ok in H as (? & _ & H). apply bind_ok in H as (? & _ & H).
  injection H as <-. apply validate_kind in V. apply process_valid in P as (VA & K). split; [exact VA|]. eapply same_kind_trans; eassumption.
Qed.

(** ** The invariant *)

Record books (s : sess) : Prop := {
  bk_initial : valid (s_initial s);
  bk_left : valid (s_left s);
  bk_kind : same_kind (s_initial s) (s_left s);
  bk_log : forall c, In c (s_log s) -> valid (amount c) /\ same_kind (s_initial s) (amount c);
  bk_infinite : infinite (s_initial s) -> s_left s = s_initial s;
  bk_finite : ~ infinite (s_initial s) -> ~ infinite (s_left s);
  bk_sum : ~ infinite (s_initial s) -> forall f, component f -> xeq (xadd (f (s_left s)) (charges f s)) (f (s_initial s))
}.
(** Parts of a partition start with what the partition was charged. *)
Inductive balanced : dtree sess -> Prop :=
| Balanced s parts : books s ->
    Forall2 (fun b part => forall d, In d part -> balanced d /\ s_initial (d_data d) = b) (splits_of (s_log s)) parts ->
    balanced (DNode s parts).
Lemma balanced_books d : balanced d -> books (d_data d). Proof. intros []; assumption. Qed.

Fixpoint dtree_ind' {S} (P : dtree S -> Prop) (H : forall s parts, (forall part d, In part parts -> In d part -> P d) -> P (DNode s parts)) (d : dtree S) : P d.
Proof.
  destruct d as [s parts]. apply H. induction parts as [|part parts IH]; [intros ? ? []|].
  intros part' c [<-|I]; [|exact (IH part' c I)]. clear IH. induction part as [|x part IH]; [intros []|].
  intros [<-|I]; [apply dtree_ind'; exact H|exact (IH I)].
Defined.

Lemma Forall2_upd {A B} (P : A -> B -> Prop) f : forall l l' i, Forall2 P l l' ->
  (forall a b, nth_error l i = Some a -> nth_error l' i = Some b -> P a b -> P a (f b)) -> Forall2 P l (upd i f l').
Proof.
  induction l as [|a l IH]; intros l' i F H; inversion F as [|? b ? l2 P1 F1]; subst; [destruct i; constructor|].
  destruct i as [|i]; cbn; constructor; auto.
Qed.
Lemma In_upd {A} (f : A -> A) l i x : In x (upd i f l) -> In x l \/ exists y, nth_error l i = Some y /\ x = f y.
Proof.
  revert i. induction l as [|y l IH]; intros [|i] H; cbn in H; [destruct H|destruct H| |].
  - destruct H as [<-|H]; [right; exists y; auto|left; now right].
  - destruct H as [<-|H]; [left; now left|]. destruct (IH i H) as [I|I]; [left; now right|right; exact I].
Qed.
Lemma nth_In {A} (l : list A) i x : nth_error l i = Some x -> In x l. Proof. apply nth_error_In. Qed.
Lemma balanced_change g : forall p d c, balanced d -> dfind p d = Some c ->
  (balanced c -> balanced (g c) /\ s_initial (d_data (g c)) = s_initial (d_data c)) -> balanced (dchange p g d)
  /\ s_initial (d_data (dchange p g d)) = s_initial (d_data d).
Proof.
  induction p as [|(k, i) p IH]; intros d c B F H; [injection F as <-; exact (H B)|]. split; [|destruct d; reflexivity].
  destruct B as [s parts BK B]. cbn in *. constructor; [exact BK|].
  destruct (nth_error parts k) as [part|] eqn:K; [|discriminate]. destruct (nth_error part i) as [x|] eqn:X; [|discriminate].
  apply Forall2_upd; [exact B|]. intros b part' _ Kp Pb. rewrite K in Kp. injection Kp as <-. intros d I.
  apply In_upd in I as [I|(y & Y & ->)]; [exact (Pb d I)|]. rewrite X in Y. injection Y as <-.
  destruct (Pb x (nth_In _ _ _ X)) as (Bx & Ix). destruct (IH x c Bx F H) as (B1 & B2). split; [exact B1|]. congruence.
Qed.
Lemma balanced_find : forall p d c, balanced d -> dfind p d = Some c -> balanced c.
Proof.
  induction p as [|(k, i) p IH]; intros d c B F; [injection F as <-; exact B|]. destruct B as [s parts BK B]. cbn in F.
  destruct (nth_error parts k) as [part|] eqn:K; [|discriminate]. destruct (nth_error part i) as [x|] eqn:X; [|discriminate].
  assert (exists b, forall d, In d part -> balanced d /\ s_initial (d_data d) = b) as (b & Pb).
  { clear F X BK. revert k K. generalize (splits_of (s_log s)) as l, B. clear. intros l B. induction B as [|b part' l parts P B IH]; intros [|k] K; try discriminate K.
    - injection K as ->. exists b. exact P.
    - exact (IH k K). }
  destruct (Pb x (nth_In _ _ _ X)) as (Bx & _). eapply IH; eassumption.
Qed.

Lemma charges_app f s r c : charges f (charged s r c) = xsum (map (fun c => f (amount c)) (s_log s) ++ [f (amount c)]).
Proof. unfold charges. cbn. now rewrite map_app. Qed.
Lemma books_charged s r c : books s -> valid (amount c) -> same_kind (s_left s) (amount c) -> spend (s_left s) (amount c) = Some r -> books (charged s r c).
Proof.
  intros B V K SP. destruct B as [Bi Bl Bk Bg Bf1 Bf2 Bs]. destruct (spend_spec _ _ _ Bl V K SP) as [(IL & ->)|(NL & NR & VR & KR & SUM)].
  - assert (II : infinite (s_initial s)).
    { destruct (is_infinite (s_initial s)) eqn:X; [now apply is_infinite_iff|]. apply is_infinite_false in X. destruct (Bf2 X IL). }
    constructor; cbn; auto.
    + intros c' I. apply in_app_iff in I as [I|[<-|[]]]; [auto|]. split; [exact V|]. eapply same_kind_trans; eassumption.
    + intros N. destruct (N II).
  - assert (NI : ~ infinite (s_initial s)) by (intros II; rewrite (Bf1 II) in NL; contradiction).
    constructor; cbn; auto.
    + eapply same_kind_trans; eassumption.
    + intros c' I. apply in_app_iff in I as [I|[<-|[]]]; [auto|]. split; [exact V|]. eapply same_kind_trans; eassumption.
    + intros II. destruct (NI II).
    + intros _ f C. rewrite map_app. cbn [map]. eapply xeq_trans; [apply xadd_xeq; [apply xeq_refl|apply xsum_app]|].
      eapply xeq_trans; [|apply (Bs NI f C)]. cbn [xsum fold_right].
      eapply xeq_trans; [|apply xadd_xeq; [apply (SUM f C)|apply xeq_refl]].
      eapply xeq_trans; [apply xadd_xeq; [apply xeq_refl|apply xadd_xeq; [apply xeq_refl|apply xadd_0_r]]|].
      eapply xeq_trans; [apply xadd_xeq; [apply xeq_refl|apply xadd_comm]|]. apply xadd_assoc.
Qed.
Lemma books_new b x cons : valid b -> books {| s_initial := b; s_left := b; s_log := []; s_tree := x; s_cons := cons |}.
Proof. intros V. constructor; cbn; auto; [apply same_kind_refl|tauto|]. intros _ f _. unfold charges. cbn. apply xadd_0_r. Qed.
Lemma books_tables s x cons : books s -> books (with_tables s x cons).
Proof. intros [A B C D F G H]. constructor; cbn; auto. Qed.

(** ** Composition *)

Lemma log_split f l : xeq (xsum (map (fun c => f (amount c)) l)) (xadd (xsum (map f (measured l))) (xsum (map f (splits_of l)))).
Proof.
  induction l as [|c l IH]; [cbn; lra|]. cbn [map xsum fold_right]. fold (xsum (map (fun c => f (amount c)) l)).
  eapply xeq_trans; [apply xadd_xeq; [apply xeq_refl|exact IH]|]. destruct c as [b|b]; cbn [amount measured splits_of flat_map app map xsum fold_right].
  - fold (measured l) (splits_of l) (xsum (map f (measured l))) (xsum (map f (splits_of l))). apply xadd_assoc.
  - fold (measured l) (splits_of l) (xsum (map f (measured l))) (xsum (map f (splits_of l))).
    eapply xeq_trans; [apply xadd_assoc|]. eapply xeq_trans; [apply xadd_xeq; [apply xadd_comm|apply xeq_refl]|]. apply xeq_sym, xadd_assoc.
Qed.
Lemma in_splits b l : In b (splits_of l) -> In (Split b) l.
Proof. unfold splits_of. intros H. apply in_flat_map in H as ([b'|b'] & I & J); [destruct J|]. destruct J as [<-|[]]. exact I. Qed.
Lemma charge_le s f c : books s -> ~ infinite (s_initial s) -> component f -> In c (s_log s) -> xle (f (amount c)) (f (s_initial s)).
Proof.
  intros B N C I. pose proof (bk_sum s B N f C) as S. eapply xle_trans; [|apply xeq_xle, S].
  eapply xle_trans; [|apply xle_add_l, (component_nonneg f _ C (bk_left s B))].
  unfold charges. apply xsum_ge.
  - intros x J. apply in_map_iff in J as (c' & <- & J). apply (component_nonneg f _ C). apply (bk_log s B _ J).
  - apply in_map_iff. exists c. auto.
Qed.
Lemma charge_finite s c : books s -> ~ infinite (s_initial s) -> In c (s_log s) -> ~ infinite (amount c).
Proof.
  intros B N I. destruct (bk_log s B c I) as (V & K). pose proof (charge_le s loss c B N (or_introl eq_refl) I) as L.
  pose proof (charge_le s delta c B N (or_intror eq_refl) I) as D. pose proof (bk_initial s B) as VI.
  destruct (s_initial s) as [x|x d|x], (amount c) as [y|y d'|y]; try contradiction; cbn in *.
  - intros ->. apply N. destruct x; cbn in L; tauto.
  - intros [->|X]; apply N; [left; destruct x; cbn in L; tauto|]. right. apply xle_antisym; [tauto|]. eapply xle_trans; [apply xeq_xle, xeq_sym, X|exact D].
  - intros ->. apply N. destruct x; cbn in L; tauto.
Qed.
Lemma spent_nonneg f d : component f -> balanced d -> xle (XFin 0) (spent f d).
Proof.
  intros C B. destruct B as [s parts BK F]. cbn [spent]. apply xadd_nonneg; apply xsum_nonneg.
  - intros x I. apply in_map_iff in I as (b & <- & I). apply (component_nonneg f _ C). unfold measured in I. apply in_flat_map in I as ([b'|b'] & I & J); [|destruct J].
    destruct J as [<-|[]]. apply (bk_log s BK _ I).
  - intros x I. apply in_map_iff in I as (part & <- & _). induction part as [|y part IH]; [apply xle_refl|]. cbn [map xmaximum fold_right]. apply xmax_nonneg, IH.
Qed.
(** What is computed never costs more than what was charged. *)
Lemma spent_le_charges f : component f -> forall d, balanced d -> ~ infinite (s_initial (d_data d)) ->
  xle (spent f d) (charges f (d_data d)) /\ xle (spent f d) (f (s_initial (d_data d))).
Proof.
  intros C. apply (dtree_ind' (fun d => balanced d -> ~ infinite (s_initial (d_data d)) ->
    xle (spent f d) (charges f (d_data d)) /\ xle (spent f d) (f (s_initial (d_data d))))).
  intros s parts IH B N. cbn [d_data] in *. inversion B as [? ? BK F]; subst.
  assert (X : xle (spent f (DNode s parts)) (charges f s)).
  { cbn [spent]. unfold charges. eapply xle_trans; [|apply xeq_xle, xeq_sym, log_split]. apply xadd_mono; [apply xle_refl|].
    assert (SB : forall b, In b (splits_of (s_log s)) -> ~ infinite b /\ valid b).
    { intros b I. apply in_splits in I. split; [exact (charge_finite s (Split b) BK N I)|]. apply (bk_log s BK _ I). }
    clear B BK N. revert SB IH. generalize (splits_of (s_log s)) as l, F. clear s F. intros l F. induction F as [|b part l parts P F IHF]; intros SB IH; [apply xle_refl|].
    cbn [map xsum fold_right]. apply xadd_mono.
    - destruct (SB b (or_introl eq_refl)) as (NB & VB). apply xmaximum_le; [apply (component_nonneg f _ C VB)|].
      intros x I. apply in_map_iff in I as (d & <- & I). destruct (P d I) as (BD & EQ).
      destruct (IH part d (or_introl eq_refl) I BD) as (_ & R); [rewrite EQ; exact NB|]. rewrite EQ in R. exact R.
    - apply IHF; [intros b' I; apply SB; now right|]. intros part' d I J. apply (IH part' d); [now right|exact J]. }
  split; [exact X|]. eapply xle_trans; [exact X|]. eapply xle_trans; [|apply xeq_xle, (bk_sum s BK N f C)].
  apply xle_add_l, (component_nonneg f _ C (bk_left s BK)).
Qed.
End Money.
