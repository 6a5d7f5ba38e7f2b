(** Two runs of the same calls on sessions that differ in their budgets only: where the poorer
    one can pay for everything, the richer one does the same. *)
From Coq Require Import String Bool Arith ZArith QArith Lqa Lia Permutation List.
From Verif Require Import Prelude Budget BudgetProofs Value Rows Constraints Schema Query Transform TransformVisit Tables
  Accountant AccountantProofs Session SessionSpec SessionMoney SessionCharge SessionSound BlindSpec.
Import ListNotations.
Local Open Scope string_scope.
Local Open Scope nat_scope.

(** ** Specification *)

(** Rounding down to a float is monotone. *)
Definition rounds_in_order (E : env) : Prop := forall x y : Q, (x <= y)%Q -> (e_down E x <= e_down E y)%Q.
(** An amount as a float, rounded down. *)
Definition as_float (E : env) (x : xq) : xq := match x with XFin q => XFin (ffrom (e_round E) (e_down E q)) | _ => x end.
(** A request that is at most what is left, read as floats; a PureDPBudget may be spent in an
    ApproxDP session.  Requests of another kind are not limited. *)
Definition fits (E : env) (left b : budget) : Prop :=
  match left, b with
  | Pure l, Pure x | Zcdp l, Zcdp x | Approx l _, Pure x => xle x (as_float E l)
  | Approx l d, Approx x d' => xle x (as_float E l) /\ xle d' (as_float E d)
  | _, _ => True
  end.
(** What a call asks for fits. *)
Definition within (E : env) (st : state) (o : op) : Prop :=
  match o with
  | Evaluate p _ b | SpendOnly p _ b | Partition p _ b _ _ => forall s, session_at st p = Ok s -> fits E (s_left s) b
  | _ => True
  end.
Fixpoint affordable (E : env) (st : state) (l : list op) : Prop :=
  match l with [] => True | o :: l => within E st o /\ affordable E (fst (step E st o)) l end.
(** The same session with a budget that is at least as large. *)
Definition richer (s s' : sess) : Prop :=
  s_log s' = s_log s /\ s_tree s' = s_tree s /\ s_cons s' = s_cons s
  /\ valid (s_left s) /\ valid (s_left s') /\ ble (s_left s) (s_left s').
(** The same tree of sessions, each at least as rich. *)
Inductive arel : acct sess -> acct sess -> Prop :=
| ARel st s s' l l' : richer s s' -> Forall2 (Forall2 arel) l l' -> arel (Acct st s l) (Acct st s' l').
Definition raised (st st' : state) : Prop := arel (st_root st) (st_root st') /\ st_public st' = st_public st.

(** ** Trees *)

Lemma arel_state t t' : arel t t' -> a_state t' = a_state t. Proof. intros []; reflexivity. Qed.
Lemma arel_data t t' : arel t t' -> richer (a_data t) (a_data t'). Proof. intros []; assumption. Qed.
Lemma arel_parts t t' : arel t t' -> Forall2 (Forall2 arel) (a_parts t) (a_parts t'). Proof. intros []; assumption. Qed.
Lemma arel_intro t t' : a_state t' = a_state t -> richer (a_data t) (a_data t') -> Forall2 (Forall2 arel) (a_parts t) (a_parts t') -> arel t t'.
Proof. destruct t, t'. cbn. intros -> R F. constructor; assumption. Qed.

Lemma forall2_nth_error {A B} (R : A -> B -> Prop) l l' : Forall2 R l l' -> forall n,
  match nth_error l n, nth_error l' n with Some a, Some b => R a b | None, None => True | _, _ => False end.
Proof. induction 1 as [|a b l l' H F IH]; intros [|n]; cbn; [exact I|exact I|exact H|apply IH]. Qed.
Lemma forall2_upd {A B} (R : A -> B -> Prop) f g : (forall a b, R a b -> R (f a) (g b)) -> forall i l l', Forall2 R l l' -> Forall2 R (upd i f l) (upd i g l').
Proof. intros H i l l' F. revert i. induction F as [|a b l l' X F IH]; intros [|i]; cbn; constructor; auto. Qed.
Lemma forall2_map {A B} (R : A -> B -> Prop) f g l l' : Forall2 R l l' -> (forall a b, In a l -> R a b -> R (f a) (g b)) -> Forall2 R (map f l) (map g l').
Proof.
  induction 1 as [|a b l l' X F IH]; intros H; cbn; constructor; [apply H; [left; reflexivity|exact X]|]. apply IH. intros x y I. apply H. right. exact I.
Qed.
Lemma forall2_len {A B} (R : A -> B -> Prop) l l' : Forall2 R l l' -> length l' = length l.
Proof. induction 1; cbn; congruence. Qed.
Lemma forall2_firstn {A B} (R : A -> B -> Prop) n : forall l l', Forall2 R l l' -> Forall2 R (firstn n l) (firstn n l').
Proof. induction n as [|n IH]; intros l l' F; [constructor|]. destruct F; cbn; constructor; auto. Qed.
Lemma forall2_skipn {A B} (R : A -> B -> Prop) n : forall l l', Forall2 R l l' -> Forall2 R (skipn n l) (skipn n l').
Proof. induction n as [|n IH]; intros l l' F; [exact F|]. destruct F; cbn; [constructor|auto]. Qed.
Lemma forall2_app {A B} (R : A -> B -> Prop) l1 l1' l2 l2' : Forall2 R l1 l1' -> Forall2 R l2 l2' -> Forall2 R (l1 ++ l2)%list (l1' ++ l2')%list.
Proof. induction 1; cbn; [auto|]. intros. constructor; auto. Qed.
Lemma forall2_refl {A} (R : A -> A -> Prop) l : (forall x, In x l -> R x x) -> Forall2 R l l.
Proof. induction l as [|x l IH]; intros H; constructor; [apply H; left; reflexivity|]. apply IH. intros y I. apply H. right. exact I. Qed.

Lemma arel_find p : forall t t', arel t t' ->
  match find p t, find p t' with Some c, Some c' => arel c c' | None, None => True | _, _ => False end.
Proof.
  induction p as [|(k, i) p IH]; intros t t' H; [exact H|]. cbn [find]. pose proof (forall2_nth_error _ _ _ (arel_parts _ _ H) k) as X.
  destruct (nth_error (a_parts t) k) as [pt|], (nth_error (a_parts t') k) as [pt'|]; try contradiction; [|exact I].
  pose proof (forall2_nth_error _ _ _ X i) as Y. destruct (nth_error pt i), (nth_error pt' i); try contradiction; [|exact I]. apply IH, Y.
Qed.
Lemma arel_change p f g : (forall t t', arel t t' -> arel (f t) (g t')) -> forall t t', arel t t' -> arel (change p f t) (change p g t').
Proof.
  intros H. induction p as [|(k, i) p IH]; intros t t' A; [apply H, A|]. cbn [change]. rewrite (arel_state _ _ A).
  constructor; [apply arel_data, A|]. apply forall2_upd; [|apply arel_parts, A]. intros l l'. apply forall2_upd. exact IH.
Qed.
Lemma arel_retire_all : forall t t', arel t t' -> arel (retire_all t) (retire_all t').
Proof.
  apply (acct_ind' (fun t => forall t', arel t t' -> arel (retire_all t) (retire_all t'))). intros st s parts IH t' H. inversion H; subst. cbn [retire_all].
  constructor; [assumption|]. apply forall2_map with (R := Forall2 arel); [assumption|]. intros a b I F. apply forall2_map with (R := arel); [exact F|]. intros x y J. apply (IH a x I J).
Qed.
Lemma arel_retired l l' : Forall2 (Forall2 arel) l l' -> Forall2 (Forall2 arel) (map (map retire_all) l) (map (map retire_all) l').
Proof. intros F. apply forall2_map with (R := Forall2 arel); [exact F|]. intros a b _ X. apply forall2_map with (R := arel); [exact X|]. intros x y _. apply arel_retire_all. Qed.
Lemma arel_set_state a t t' : arel t t' -> arel (set_state a t) (set_state a t').
Proof. intros H. unfold set_state. constructor; [apply arel_data, H|apply arel_parts, H]. Qed.
Lemma arel_reclaim t t' : arel t t' -> arel (reclaim t) (reclaim t').
Proof. intros H. unfold reclaim. constructor; [apply arel_data, H|]. apply arel_retired, arel_parts, H. Qed.
Lemma arel_skip i l l' : Forall2 arel l l' -> Forall2 arel (skip_to i l) (skip_to i l').
Proof.
  intros F. unfold skip_to. apply forall2_app.
  - apply forall2_map with (R := arel); [apply forall2_firstn, F|]. intros a b _. apply arel_retire_all.
  - apply forall2_upd; [intros a b; apply arel_set_state|apply forall2_skipn, F].
Qed.
Lemma arel_force p : forall t t', arel t t' -> arel (force_activate p t) (force_activate p t').
Proof.
  induction p as [|(k, i) p IH]; intros t t' H; [apply arel_reclaim, H|]. destruct p as [|x p].
  - cbn [force_activate]. pose proof (arel_find [(k, i)] t t' H) as X. destruct (find [(k, i)] t) as [c|], (find [(k, i)] t') as [c'|]; try contradiction; [|exact H].
    rewrite (arel_state _ _ X). destruct (a_state c); try (apply (arel_change [(k, i)]); [apply arel_reclaim|exact H]).
    rewrite (arel_state _ _ H). constructor; [apply arel_data, H|]. apply forall2_upd; [intros a b; apply arel_skip|apply arel_parts, H].
  - change (force_activate ((k, i) :: x :: p)) with (fun t : acct sess => Acct (a_state t) (a_data t) (upd k (upd i (force_activate (x :: p))) (a_parts t))).
    cbv beta. rewrite (arel_state _ _ H). constructor; [apply arel_data, H|]. apply forall2_upd; [|apply arel_parts, H]. intros a b. apply forall2_upd. exact IH.
Qed.
Lemma arel_retire_part k i t t' : arel t t' -> arel (retire_part k i t) (retire_part k i t').
Proof.
  intros H. unfold retire_part. pose proof (forall2_nth_error _ _ _ (arel_parts _ _ H) k) as X.
  destruct (nth_error (a_parts t) k) as [pt|], (nth_error (a_parts t') k) as [pt'|]; try contradiction; [|exact H].
  assert (F : Forall2 (Forall2 arel) (upd k (upd i retire_all) (a_parts t)) (upd k (upd i retire_all) (a_parts t'))).
  { apply forall2_upd; [|apply arel_parts, H]. intros a b. apply forall2_upd, arel_retire_all. }
  rewrite (forall2_len _ _ _ X). destruct (S i <? length pt).
  - rewrite (arel_state _ _ H). constructor; [apply arel_data, H|]. apply forall2_upd; [|exact F]. intros a b. apply forall2_upd. intros x y. apply arel_set_state.
  - constructor; [apply arel_data, H|exact F].
Qed.
Lemma arel_retire_active p : forall t t', arel t t' -> arel (retire_active p t) (retire_active p t').
Proof.
  induction p as [|(k, i) p IH]; intros t t' H; [apply arel_retire_all, H|]. destruct p as [|x p]; [apply arel_retire_part, H|].
  change (retire_active ((k, i) :: x :: p)) with (fun t : acct sess => Acct (a_state t) (a_data t) (upd k (upd i (retire_active (x :: p))) (a_parts t))).
  cbv beta. rewrite (arel_state _ _ H). constructor; [apply arel_data, H|]. apply forall2_upd; [|apply arel_parts, H]. intros a b. apply forall2_upd. exact IH.
Qed.
Lemma arel_retire w p t t' : arel t t' -> arel (fst (retire w p t)) (fst (retire w p t')) /\ snd (retire w p t') = snd (retire w p t).
Proof.
  intros H. unfold retire. pose proof (arel_find p t t' H) as X. destruct (find p t) as [c|], (find p t') as [c'|]; try contradiction; cbn [option_map]; [|auto].
  rewrite (arel_state _ _ X). destruct (a_state c); cbn [fst snd]; [split; [apply arel_retire_active, H|reflexivity]|auto| |];
    (destruct w; cbn [fst snd]; split; [apply arel_retire_active, arel_force, H|reflexivity|exact H|reflexivity]).
Qed.
Lemma arel_activate p t t' : arel t t' -> arel (fst (activate p t)) (fst (activate p t')) /\ snd (activate p t') = snd (activate p t).
Proof.
  intros H. unfold activate. pose proof (arel_find p t t' H) as X. destruct (find p t) as [c|], (find p t') as [c'|]; try contradiction; cbn [option_map]; [|auto].
  rewrite (arel_state _ _ X). destruct (a_state c); cbn [fst snd]; auto; (split; [apply arel_force, H|reflexivity]).
Qed.
Lemma arel_new l l' : Forall2 richer l l' -> Forall2 arel (new_parts l) (new_parts l').
Proof.
  intros F. destruct F as [|s s' l l' H F]; cbn [new_parts]; constructor; [constructor; [exact H|constructor]|].
  induction F; cbn [map]; constructor; [constructor; [assumption|constructor]|assumption].
Qed.
Lemma arel_split s s' l l' t t' : richer s s' -> Forall2 richer l l' -> arel t t' -> arel (split_at s l t) (split_at s' l' t').
Proof.
  intros R F H. unfold split_at. constructor; [exact R|]. apply forall2_app; [apply arel_parts, H|]. constructor; [apply arel_new, F|constructor].
Qed.
Lemma arel_set_data s s' t t' : richer s s' -> arel t t' -> arel (set_data s t) (set_data s' t').
Proof. intros R H. unfold set_data. rewrite (arel_state _ _ H). constructor; [exact R|apply arel_parts, H]. Qed.

(** ** Budgets *)
Section More.
Variable E : env.
Hypothesis MONO : rounds_in_order E.
Notation R := (e_round E).

Lemma as_float_mono x y : xle x y -> xle (as_float E x) (as_float E y).
Proof. destruct x, y; cbn; try tauto. intros H. apply ffrom_mono, MONO, H. Qed.
Lemma as_float_le x : xle (XFin 0) x -> xle (as_float E x) x.
Proof. destruct x as [q| |]; cbn; try tauto. intros H. destruct (e_down_ok E q H) as (_ & D). pose proof (ffrom_le R (e_down E q)). lra. Qed.
Lemma as_float_nonneg x : xle (XFin 0) x -> xle (XFin 0) (as_float E x).
Proof.
  destruct x as [q| |]; cbn; try tauto. intros H. destruct (e_down_ok E q H) as (D & _). apply (ffrom_mono R) in D. rewrite (ffrom_zero R) in D. exact D.
Qed.
Lemma down_num x : xle (XFin 0) x -> arg_isnan R (down E x) = Ok false /\ arg_lt_int (down E x) 0 = false /\ to_exact_number R (down E x) = Ok (as_float E x).
Proof.
  destruct x as [q| |]; cbn; try tauto. intros H. split; [reflexivity|]. split; [|reflexivity]. destruct (e_down_ok E q H) as (D & _).
  unfold arg_lt_int, plt. cbn [pynum_x]. apply xltb_false. cbn. exact D.
Qed.
Lemma rem_pure x : xle (XFin 0) x -> mk_pure R (down E x) = Ok (Pure (as_float E x)).
Proof. intros H. destruct (down_num x H) as (A & B & C). unfold mk_pure. rewrite A. cbn [bind raise_if]. rewrite B. cbn [bind raise_if]. rewrite C. reflexivity. Qed.
Lemma rem_zcdp x : xle (XFin 0) x -> mk_zcdp R (down E x) = Ok (Zcdp (as_float E x)).
Proof. intros H. destruct (down_num x H) as (A & B & C). unfold mk_zcdp. rewrite A. cbn [bind raise_if]. rewrite B. cbn [bind raise_if]. rewrite C. reflexivity. Qed.
Lemma rem_approx x d : xle (XFin 0) x -> xle (XFin 0) d -> xle d (XFin 1) -> mk_approx R (down E x) (down E d) = Ok (Approx (as_float E x) (as_float E d)).
Proof.
  intros H H' H1. destruct (down_num x H) as (A & B & C). destruct (down_num d H') as (A' & B' & C'). unfold mk_approx. rewrite A, A'. cbn [bind raise_if].
  rewrite B, B'. cbn [bind raise_if orb].
  assert (G : arg_gt_int (down E d) 1 = false).
  { destruct d as [q| |]; cbn in H', H1; try tauto. destruct (e_down_ok E q H') as (_ & D). unfold arg_gt_int, down, plt. cbn [pynum_x]. apply xltb_false. exact (Qle_trans _ q _ D H1). }
  rewrite G. cbn [bind raise_if]. rewrite C, C'. reflexivity.
Qed.
Lemma adjusted_fits x r : xle x r -> adjusted_number x r = x.
Proof.
  intros H. unfold adjusted_number, slightly_higher. destruct r as [r| |]; try reflexivity.
  replace (xleb (XFin 0) (xsub r x)) with true; [reflexivity|]. symmetry. apply xleb_iff. destruct x; cbn in *; try tauto. lra.
Qed.
(** The charge for a request that fits. *)
Definition plain_charge (b : budget) : res budget :=
  match b with
  | Pure x => mk_pure R (AExact x)
  | Zcdp x => mk_zcdp R (AExact x)
  | Approx e d => if is_infinite b then mk_approx R (ANum (Budget.PFlt (FX XPInf))) (ANum (Budget.PInt 1))
                  else let* _ := mk_approx R (AExact e) (AExact d) in mk_approx R (AExact e) (AExact d)
  end.
Lemma process_fits left b : valid left -> same_kind left b -> fits E left b -> process_budget E left b = plain_charge b.
Proof.
  intros V K F. destruct left as [l|l ld|l], b as [x|x d|x]; try destruct K; cbn [process_budget plain_charge valid fits] in *.
  - rewrite (rem_pure l V). cbn [bind adjusted_budget]. rewrite adjusted_fits by exact F. reflexivity.
  - destruct (is_infinite (Approx x d)); [reflexivity|]. destruct (mk_approx R (AExact x) (AExact d)) as [req|] eqn:M; [|reflexivity]. cbn [bind].
    destruct V as (V1 & V2 & V3), F as (F1 & F2). rewrite (rem_approx l ld V1 V2 V3). cbn [bind].
    pose proof M as M'. apply mk_approx_inv in M' as (a & c & -> & A & C). injection A as <-. injection C as <-.
    cbn [adjusted_budget]. rewrite !adjusted_fits by assumption. exact M.
  - rewrite (rem_zcdp l V). cbn [bind adjusted_budget]. rewrite adjusted_fits by exact F. reflexivity.
Qed.
Lemma fits_more l l' b : ble l l' -> fits E l b -> fits E l' b.
Proof.
  destruct l as [x|x y|x], l' as [x'|x' y'|x'], b as [z|z w|z]; cbn; try tauto; intros H F.
  - eapply xle_trans; [exact F|apply as_float_mono, H].
  - eapply xle_trans; [exact F|apply as_float_mono, H].
  - split; (eapply xle_trans; [apply F|apply as_float_mono, H]).
  - eapply xle_trans; [exact F|apply as_float_mono, H].
Qed.
Lemma ble_kind l l' : ble l l' -> same_kind l l'. Proof. destruct l, l'; cbn; tauto. Qed.
Lemma infinite_more l l' : valid l' -> ble l l' -> infinite l -> infinite l'.
Proof.
  destruct l as [x|x y|x], l' as [x'|x' y'|x']; cbn; try tauto.
  - intros _ H ->. destruct x'; cbn in H; tauto.
  - intros (_ & _ & V) (H1 & H2) [-> | D].
    + left. destruct x'; cbn in H1; tauto.
    + right. apply xle_antisym; [exact V|]. eapply xle_trans; [|exact H2]. apply xeq_xle, xeq_sym, D.
  - intros _ H ->. destruct x'; cbn in H; tauto.
Qed.
Lemma xminus_mono x x' y : xle (XFin 0) y -> xle y x -> x <> XPInf -> xle x x' -> xle (xminus x y) (xminus x' y).
Proof. intros; xq_solve. Qed.
Lemma plain_valid b adj : plain_charge b = Ok adj -> valid adj /\ same_kind b adj.
Proof.
  destruct b as [x|x d|x]; cbn [plain_charge]; intros H.
  - split; [eapply mk_pure_valid; exact H|]. apply mk_pure_kind in H as (? & ->). exact I.
  - destruct (is_infinite (Approx x d)).
    + split; [eapply mk_approx_valid; exact H|]. apply mk_approx_kind in H as (? & ? & ->). exact I.
    + apply bind_ok in H as (? & _ & H). split; [eapply mk_approx_valid; exact H|]. apply mk_approx_kind in H as (? & ? & ->). exact I.
  - split; [eapply mk_zcdp_valid; exact H|]. apply mk_zcdp_kind in H as (? & ->). exact I.
Qed.
(** Without an infinite budget on the left, the charge is below it in every component. *)
Lemma plain_below l b adj : valid l -> ~ infinite l -> same_kind l b -> fits E l b -> plain_charge b = Ok adj -> ble adj l.
Proof.
  intros V NI K F H. destruct l as [l|l ld|l], b as [x|x d|x]; try destruct K; cbn [plain_charge valid fits infinite] in *.
  - apply mk_pure_inv in H as (y & -> & Y). injection Y as <-. cbn. eapply xle_trans; [exact F|apply as_float_le, V].
  - destruct V as (V1 & V2 & V3), F as (F1 & F2).
    assert (G1 : xle x l) by (eapply xle_trans; [exact F1|apply as_float_le, V1]). assert (G2 : xle d ld) by (eapply xle_trans; [exact F2|apply as_float_le, V2]).
    destruct (is_infinite (Approx x d)) eqn:I.
    + exfalso. apply NI. apply is_infinite_iff in I. destruct I as [-> | I]; [left; destruct l; cbn in G1; tauto|].
      right. apply xle_antisym; [exact V3|]. eapply xle_trans; [|exact G2]. apply xeq_xle, xeq_sym, I.
    + apply bind_ok in H as (? & _ & H). apply mk_approx_inv in H as (y & z & -> & Y & Z). injection Y as <-. injection Z as <-. split; assumption.
  - apply mk_zcdp_inv in H as (y & -> & Y). injection Y as <-. cbn. eapply xle_trans; [exact F|apply as_float_le, V].
Qed.
Lemma spend_below l a : valid l -> ~ infinite l -> ble a l -> valid a -> exists r, spend l a = Some r.
Proof.
  intros V NI B VA. unfold spend. rewrite (proj2 (is_infinite_false l) NI). destruct l as [x|x d|x], a as [y|y d'|y]; cbn [ble] in B; try destruct B.
  - rewrite (proj2 (xleb_iff y x) B). eauto.
  - rewrite (proj2 (xleb_iff y x) H), (proj2 (xleb_iff d' d) H0). cbn [andb]. eauto.
  - rewrite (proj2 (xleb_iff y x) B). eauto.
Qed.
Lemma spend_mono l l' a r r' : valid l -> valid l' -> ble l l' -> valid a -> spend l a = Some r -> spend l' a = Some r' -> ~ infinite l -> ble r r'.
Proof.
  intros V V' B VA H H' NI. unfold spend in *. rewrite (proj2 (is_infinite_false l) NI) in H. destruct (is_infinite l') eqn:I'.
  - injection H' as <-. destruct l as [x|x d|x], a as [y|y d'|y], l' as [x'|x' e'|x']; try discriminate H; try destruct B; cbn [valid infinite] in *.
    + destruct (xleb y x) eqn:L; [|discriminate]. injection H as <-. apply xleb_iff in L. destruct (xminus_spec x y VA L NI) as (_ & _ & C & _). exact (xle_trans _ _ _ C B).
    + destruct (xleb y x && xleb d' d) eqn:L; [|discriminate]. injection H as <-. apply andb_prop in L as (L & L'). apply xleb_iff in L, L'.
      destruct VA as (V1 & V2 & _), V as (_ & _ & V3). assert (Nd : d <> XPInf) by (intros ->; destruct V3). assert (Nx : x <> XPInf) by tauto.
      destruct (xminus_spec x y V1 L Nx) as (_ & _ & C & _). destruct (xminus_spec d d' V2 L' Nd) as (_ & _ & C' & _). split; eapply xle_trans; eassumption.
    + destruct (xleb y x) eqn:L; [|discriminate]. injection H as <-. apply xleb_iff in L. destruct (xminus_spec x y VA L NI) as (_ & _ & C & _). exact (xle_trans _ _ _ C B).
  - destruct l as [x|x d|x], a as [y|y d'|y], l' as [x'|x' e'|x']; try discriminate H; try discriminate H'; cbn [valid infinite ble] in *; try tauto.
    + destruct (xleb y x) eqn:L; [|discriminate]. destruct (xleb y x'); [|discriminate]. injection H as <-. injection H' as <-. apply xleb_iff in L. cbn. apply xminus_mono; assumption.
    + destruct (xleb y x && xleb d' d) eqn:L; [|discriminate]. destruct (xleb y x' && xleb d' e'); [|discriminate]. injection H as <-. injection H' as <-. apply andb_prop in L as (L & L'). apply xleb_iff in L, L'.
      destruct VA as (V1 & V2 & _), V as (_ & _ & V3). assert (Nd : d <> XPInf) by (intros ->; destruct V3). assert (Nx : x <> XPInf) by tauto.
      split; apply xminus_mono; tauto.
    + destruct (xleb y x) eqn:L; [|discriminate]. destruct (xleb y x'); [|discriminate]. injection H as <-. injection H' as <-. apply xleb_iff in L. cbn. apply xminus_mono; assumption.
Qed.
Lemma spend_valid l a r : valid l -> valid a -> same_kind l a -> spend l a = Some r -> valid r.
Proof. intros V VA K H. destruct (spend_spec l a r V VA K H) as [(_ & ->)|(_ & _ & VR & _)]; assumption. Qed.
Lemma infinite_dec l : infinite l \/ ~ infinite l.
Proof. destruct (is_infinite l) eqn:I; [left; apply is_infinite_iff, I|right; apply is_infinite_false, I]. Qed.
Lemma spend_infinite l a : infinite l -> spend l a = Some l.
Proof. intros I. unfold spend. rewrite (proj2 (is_infinite_iff l) I). reflexivity. Qed.
Lemma ble_trans a b c : ble a b -> ble b c -> ble a c.
Proof. destruct a, b, c; cbn; try tauto; intros; try (split; eapply xle_trans; [|apply H0|apply H|apply H0]; apply H); eapply xle_trans; eassumption. Qed.
Lemma spend_fits l l' b adj : valid l -> valid l' -> ble l l' -> same_kind l b -> fits E l b -> plain_charge b = Ok adj ->
  exists r r', spend l adj = Some r /\ spend l' adj = Some r' /\ valid r /\ valid r' /\ ble r r'.
Proof.
  intros V V' B K F H. destruct (plain_valid b adj H) as (VA & KA).
  assert (K1 : same_kind l adj) by (eapply same_kind_trans; eassumption).
  assert (K2 : same_kind l' adj) by (eapply same_kind_trans; [apply same_kind_sym, ble_kind, B|exact K1]).
  destruct (infinite_dec l) as [I|NI].
  - exists l, l'. rewrite (spend_infinite l adj I), (spend_infinite l' adj) by (eapply infinite_more; eassumption). auto.
  - pose proof (plain_below l b adj V NI K F H) as BA. destruct (spend_below l adj V NI BA VA) as (r & S).
    assert (S' : exists r', spend l' adj = Some r').
    { destruct (infinite_dec l') as [I'|NI']; [exists l'; apply spend_infinite, I'|]. apply spend_below; try assumption. eapply ble_trans; eassumption. }
    destruct S' as (r' & S'). exists r, r'. split; [exact S|]. split; [exact S'|]. split; [exact (spend_valid l adj r V VA K1 S)|]. split; [exact (spend_valid l' adj r' V' VA K2 S')|].
    eapply spend_mono; [exact V|exact V'|exact B|exact VA|exact S|exact S'|exact NI].
Qed.

(** ** Calls *)
Definition same {A} (x x' : state * res A) : Prop := raised (fst x) (fst x') /\ snd x' = snd x.
Lemma attempt_same {A B} st st' (r : res A) (k k' : A -> state * res B) : raised st st' -> (forall a, r = Ok a -> same (k a) (k' a)) -> same (attempt st r k) (attempt st' r k').
Proof. intros H K. unfold attempt. destruct r as [a|e]; [apply K; reflexivity|]. split; [exact H|reflexivity]. Qed.
Lemma session_same {B} st st' p (k k' : sess -> state * res B) : raised st st' ->
  (forall s s', session_at st p = Ok s -> richer s s' -> same (k s) (k' s')) -> same (attempt st (session_at st p) k) (attempt st' (session_at st' p) k').
Proof.
  intros H K. unfold session_at in *. pose proof (arel_find p _ _ (proj1 H)) as X. destruct (find p (st_root st)) as [c|], (find p (st_root st')) as [c'|]; try contradiction; cbn [attempt].
  - apply K; [reflexivity|apply arel_data, X].
  - split; [exact H|reflexivity].
Qed.
Lemma activated_same {B} st st' p (k k' : state -> state * res B) : raised st st' ->
  (forall st1 st1', raised st1 st1' -> st_public st1 = st_public st -> same (k st1) (k' st1')) -> same (activated p st k) (activated p st' k').
Proof.
  intros (H & P) K. unfold activated. destruct (arel_activate p _ _ H) as (A & B'). destruct (activate p (st_root st)) as (t, r), (activate p (st_root st')) as (t', r'). cbn [fst snd] in *. subst r'.
  assert (X : raised (set_root st t) (set_root st' t')) by (split; [exact A|exact P]). destruct r as [u|e]; [apply K; [exact X|reflexivity]|]. split; [exact X|reflexivity].
Qed.
Lemma fails_same {B} st st' e : raised st st' -> same (@fails B st e) (fails st' e).
Proof. intros H. split; [exact H|reflexivity]. Qed.

Lemma kind_lift l l' b : same_kind l l' -> lift_pure E l' b = lift_pure E l b.
Proof. unfold lift_pure. destruct l, l'; cbn; try tauto; reflexivity. Qed.
Lemma kind_validate l l' b : same_kind l l' -> validate_type l' b = validate_type l b.
Proof. destruct l, l'; cbn; try tauto; reflexivity. Qed.
Lemma kind_rho l l' : same_kind l l' -> is_rho l' = is_rho l.
Proof. destruct l, l'; cbn; try tauto; reflexivity. Qed.
Lemma validated l b u : validate_type l b = Ok u -> same_kind l b.
Proof. destruct l, b; cbn; try discriminate; auto. Qed.
Lemma lift_fits l b b1 : valid l -> lift_pure E l b = Ok b1 -> fits E l b -> fits E l b1.
Proof.
  intros V H F. apply lift_request in H as ->. destruct l as [l|l d|l], b as [x|x y|x]; cbn in *; try exact F; try exact I. split; [exact F|]. apply as_float_nonneg, V.
Qed.
(** What a request is charged on both sides. *)
Lemma both_charged s s' b b1 : richer s s' -> fits E (s_left s) b -> lift_pure E (s_left s) b = Ok b1 -> validate_type (s_left s) b1 = Ok tt ->
  process_budget E (s_left s') b1 = process_budget E (s_left s) b1
  /\ forall adj, process_budget E (s_left s) b1 = Ok adj ->
     valid adj /\ exists r r', spend (s_left s) adj = Some r /\ spend (s_left s') adj = Some r'
     /\ forall c, richer (charged s r c) (charged s' r' c).
Proof.
  intros (LG & TR & CO & V & V' & B) F L VT. pose proof (lift_fits _ _ _ V L F) as F1. pose proof (validated _ _ _ VT) as K.
  pose proof (process_fits _ _ V K F1) as P.
  assert (K' : same_kind (s_left s') b1) by (eapply same_kind_trans; [apply same_kind_sym, ble_kind, B|exact K]).
  split; [rewrite P; apply process_fits; [exact V'|exact K'|eapply fits_more; eassumption]|].
  intros adj H. rewrite P in H. split; [apply (plain_valid b1 adj H)|]. destruct (spend_fits _ _ _ _ V V' B K F1 H) as (r & r' & S1 & S2 & VR & VR' & BR).
  exists r, r'. split; [exact S1|]. split; [exact S2|]. intros c. unfold richer, charged. cbn. rewrite LG. auto 8.
Qed.
Lemma bind_congr {A B} (r r' : res A) (k k' : A -> res B) : r' = r -> (forall a, r = Ok a -> k' a = k a) -> bind r' k' = bind r k.
Proof. intros -> H. destruct r; [apply H; reflexivity|reflexivity]. Qed.
Lemma compile_same s s' pub q b : richer s s' -> fits E (s_left s) b ->
  compile_and_get_info E s' pub q b = compile_and_get_info E s pub q b
  /\ forall adj, compile_and_get_info E s pub q b = Ok adj -> exists r r', spend (s_left s) adj = Some r /\ spend (s_left s') adj = Some r' /\ forall c, richer (charged s r c) (charged s' r' c).
Proof.
  intros H F. pose proof H as (LG & TR & CO & V & V' & B). unfold compile_and_get_info. rewrite TR, CO. split.
  - apply bind_congr; [apply kind_lift, ble_kind, B|]. intros b1 L. apply bind_congr; [apply kind_validate, ble_kind, B|]. intros [] VT.
    apply bind_congr; [reflexivity|]. intros _ _. apply bind_congr; [apply (both_charged s s' b b1 H F L VT)|]. reflexivity.
  - intros adj X. apply bind_ok in X as (b1 & L & X). apply bind_ok in X as ([] & VT & X). apply bind_ok in X as (? & _ & X). apply bind_ok in X as (a & P & X).
    repeat (apply bind_ok in X as (? & _ & X)). injection X as <-. apply (both_charged s s' b b1 H F L VT), P.
Qed.
Lemma put_same st st' p s s' : raised st st' -> richer s s' ->
  raised (set_root st (change p (set_data s) (st_root st))) (set_root st' (change p (set_data s') (st_root st'))).
Proof. intros (H & P) R. split; [|exact P]. cbn [st_root set_root]. apply arel_change; [|exact H]. intros t t' A. apply arel_set_data; assumption. Qed.

Lemma evaluate_same st st' p q b : raised st st' -> within E st (Evaluate p q b) -> same (evaluate E st p q b) (evaluate E st' p q b).
Proof.
  intros H WI. unfold evaluate. apply session_same; [exact H|]. intros s s' SE RI. specialize (WI s SE).
  rewrite (proj2 H). destruct (compile_same s s' (st_public st) q b RI WI) as (C & D). rewrite C. apply attempt_same; [exact H|]. intros adj AD.
  destruct (D adj AD) as (r & r' & S1 & S2 & RC). apply activated_same; [exact H|]. intros st1 st1' H1 _. rewrite (proj1 (proj2 RI)).
  destruct (negb _); [apply fails_same, H1|]. rewrite S1, S2. split; [apply put_same; [exact H1|apply RC]|reflexivity].
Qed.
Lemma spend_only_same st st' p q b : raised st st' -> within E st (SpendOnly p q b) -> same (spend_without_executing E st p q b) (spend_without_executing E st' p q b).
Proof.
  intros H WI. unfold spend_without_executing. apply session_same; [exact H|]. intros s s' SE RI. specialize (WI s SE).
  rewrite (proj2 H). destruct (compile_same s s' (st_public st) q b RI WI) as (C & D). rewrite C. apply attempt_same; [exact H|]. intros adj AD.
  destruct (D adj AD) as (r & r' & S1 & S2 & RC). apply activated_same; [exact H|]. intros st1 st1' H1 _.
  rewrite S1, S2. split; [apply put_same; [exact H1|apply RC]|reflexivity].
Qed.
Lemma public_same st st' p n f : raised st st' -> same (add_public_dataframe E st p n f) (add_public_dataframe E st' p n f).
Proof.
  intros H. unfold add_public_dataframe. apply session_same; [exact H|]. intros s s' _ RI. rewrite (proj1 (proj2 RI)), (proj2 H).
  repeat (apply attempt_same; [exact H|]; intros ? _). split; [|reflexivity]. split; [apply H|reflexivity].
Qed.
Lemma with_tables_richer s s' x c : richer s s' -> richer (with_tables s x c) (with_tables s' x c).
Proof. intros (LG & _ & _ & V & V' & B). unfold richer, with_tables. cbn. auto 8. Qed.
Lemma view_same st st' p q n c : raised st st' -> same (create_view E st p q n c) (create_view E st' p q n c).
Proof.
  intros H. unfold create_view. apply session_same; [exact H|]. intros s s' _ RI. pose proof RI as (_ & TR & CO & _ & _ & B). rewrite TR, CO, (kind_rho _ _ (ble_kind _ _ B)).
  apply attempt_same; [exact H|]. intros _ _. apply activated_same; [exact H|]. intros st1 st1' H1 _. rewrite (proj2 H1).
  repeat (apply attempt_same; [exact H1|]; intros ? _). split; [apply put_same; [exact H1|apply with_tables_richer, RI]|reflexivity].
Qed.
Lemma delete_same st st' p n : raised st st' -> same (delete_view E st p n) (delete_view E st' p n).
Proof.
  intros H. unfold delete_view. apply session_same; [exact H|]. intros s s' _ RI. pose proof RI as (_ & TR & CO & _ & _ & _). rewrite TR, CO.
  apply activated_same; [exact H|]. intros st1 st1' H1 _. destruct (find_reference n (domain_of (s_tree s))) as [r|]; [|apply fails_same, H1].
  repeat (apply attempt_same; [exact H1|]; intros ? _). split; [apply put_same; [exact H1|apply with_tables_richer, RI]|reflexivity].
Qed.
Lemma parts_richer adj space dom l : valid adj -> Forall2 richer (map (fun x => part_session adj space dom (fst x) (snd x)) l) (map (fun x => part_session adj space dom (fst x) (snd x)) l).
Proof.
  intros V. apply forall2_refl. intros s I. apply in_map_iff in I as (x & <- & _). unfold richer, part_session. cbn. repeat (split; [try reflexivity; try exact V|]).
  destruct adj; cbn; try split; apply xle_refl.
Qed.
Lemma partition_same st st' p src b col sp : raised st st' -> within E st (Partition p src b col sp) ->
  same (partition_and_create E st p src b col sp) (partition_and_create E st' p src b col sp).
Proof.
  intros H WI. unfold partition_and_create. apply session_same; [exact H|]. intros s s' SE RI. specialize (WI s SE). pose proof RI as (_ & TR & CO & V & V' & B).
  rewrite (kind_lift _ _ b (ble_kind _ _ B)). apply attempt_same; [exact H|]. intros b1 L. rewrite (kind_validate _ _ b1 (ble_kind _ _ B)). apply attempt_same; [exact H|]. intros [] VT.
  apply attempt_same; [exact H|]. intros _ _. destruct (both_charged s s' b b1 RI WI L VT) as (PE & D). rewrite PE. apply attempt_same; [exact H|]. intros adj AD.
  destruct (D adj AD) as (VA & r & r' & S1 & S2 & RC).
  replace (create_partition_transformation E s' (st_public st') src col sp) with (create_partition_transformation E s (st_public st) src col sp)
    by (unfold create_partition_transformation; rewrite TR, CO, (kind_rho _ _ (ble_kind _ _ B)), (proj2 H); reflexivity).
  apply attempt_same; [exact H|]. intros y _. apply activated_same; [exact H|]. intros st1 st1' H1 P1. rewrite S1, S2, TR, (proj2 H1). cbv zeta.
  assert (X : forall space, raised
    (set_root st1 (change p (split_at (charged s r (Split adj)) (map (fun x => part_session adj space (fst y) (fst x) (snd x)) (combine (dkeys sp) (snd y)))) (st_root st1)))
    (set_root st1' (change p (split_at (charged s' r' (Split adj)) (map (fun x => part_session adj space (fst y) (fst x) (snd x)) (combine (dkeys sp) (snd y)))) (st_root st1')))).
  { intros space. split; [|apply H1]. cbn [st_root set_root]. apply arel_change; [|apply H1]. intros t t' A. apply arel_split; [apply RC|apply parts_richer, VA|exact A]. }
  pose proof (arel_find p _ _ (proj1 H1)) as FI. destruct (get_id_space (s_tree s) (st_public st1) src) as [space|e]; (split; [apply X|]); [|reflexivity]. cbn [snd].
  destruct (find p (st_root st1)) as [c|], (find p (st_root st1')) as [c'|]; try contradiction; [|reflexivity].
  rewrite (forall2_len _ _ _ (arel_parts _ _ FI)). reflexivity.
Qed.
Lemma step_same st st' o : raised st st' -> within E st o -> same (step E st o) (step E st' o).
Proof.
  intros H WI. destruct o as [p q b|p q b|p n f|p q n c|p n|p src b col sp|p]; cbn [step].
  - apply evaluate_same; assumption.
  - apply spend_only_same; assumption.
  - apply public_same, H.
  - apply view_same, H.
  - apply delete_same, H.
  - destruct (partition_same st st' p src b col sp H WI) as (A & B). destruct (partition_and_create E st p src b col sp) as (t, r), (partition_and_create E st' p src b col sp) as (t', r').
    cbn [fst snd] in *. subst r'. split; [exact A|reflexivity].
  - unfold stop. destruct (arel_retire (e_retires_waiting E) p _ _ (proj1 H)) as (A & B). destruct (retire _ p (st_root st)) as (t, r), (retire _ p (st_root st')) as (t', r'). cbn [fst snd] in *. subst r'.
    split; [split; [exact A|apply H]|reflexivity].
Qed.
Lemma run_same l : forall st st', raised st st' -> affordable E st l -> raised (run E st l) (run E st' l) /\ answers E st' l = answers E st l.
Proof.
  induction l as [|o l IH]; intros st st' H A; [split; [exact H|reflexivity]|]. destruct A as (WI & A). destruct (step_same st st' o H WI) as (X & Y). cbn [run answers].
  destruct (IH _ _ X A) as (U & V). split; [exact U|]. rewrite Y, V. reflexivity.
Qed.
End More.
