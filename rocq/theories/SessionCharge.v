(** What a call is charged, compared with what was asked for. *)
From Coq Require Import String Bool Arith ZArith QArith Lqa Lia Permutation List.
From Verif Require Import Prelude Budget BudgetProofs Value Rows Constraints Schema SchemaProofs Query Transform TransformVisit Tables TablesProofs
  Accountant AccountantProofs Session SessionSpec SessionMoney SessionSteps SessionTables SessionInv SessionUse.
Import ListNotations.
Local Open Scope string_scope.
Local Open Scope nat_scope.

(** ** Specification *)

(** A request as a budget of the session's kind. *)
Definition request (left b : budget) : budget :=
  match left, b with Approx _ _, Pure e => Approx e (XFin 0) | _, _ => b end.
(** The charge is the request, or, in a component that exceeds what is left by at most
    one part in 10^9, what is left. *)
Definition charge_for (left b c : budget) : Prop :=
  (infinite b /\ infinite c) \/
  exists rem, ble rem left /\ adjusted_componentwise b rem c.

Section Charge.
Variable E : env.
Notation R := (e_round E).

Lemma down_le x n : valid (Pure x) -> to_exact_number R (down E x) = Ok n -> xle n x.
Proof.
  unfold down. destruct x as [q| |]; cbn; intros V [= <-]; cbn in *; auto.
  pose proof (e_down_ok E q V) as (_ & D). pose proof (ffrom_le R (e_down E q)). lra.
Qed.
Lemma mk_pure_inv a b : mk_pure R a = Ok b -> exists x, b = Pure x /\ to_exact_number R a = Ok x.
Proof. unfold mk_pure. intros H. repeat (apply bind_ok in H as (? & ? & H)). injection H as <-. eauto. Qed.
Lemma mk_zcdp_inv a b : mk_zcdp R a = Ok b -> exists x, b = Zcdp x /\ to_exact_number R a = Ok x.
Proof. unfold mk_zcdp. intros H. repeat (apply bind_ok in H as (? & ? & H)). injection H as <-. eauto. Qed.
Lemma mk_approx_inv a d b : mk_approx R a d = Ok b -> exists x y, b = Approx x y /\ to_exact_number R a = Ok x /\ to_exact_number R d = Ok y.
Proof. unfold mk_approx. intros H. repeat (apply bind_ok in H as (? & ? & H)). injection H as <-. eauto 6. Qed.

Lemma lift_request left b b1 : lift_pure E left b = Ok b1 -> b1 = request left b.
Proof.
  unfold lift_pure. intros H. destruct b as [e|e d|r]; try (injection H as <-; destruct left; reflexivity).
  destruct (is_approx left) eqn:A; [|injection H as <-; destruct left; try discriminate; reflexivity].
  apply mk_approx_inv in H as (x & y & -> & HX & HY). injection HX as <-. injection HY as <-. destruct left; try discriminate. reflexivity.
Qed.
Lemma process_charge left b c : valid left -> same_kind left b -> process_budget E left b = Ok c -> charge_for left b c.
Proof.
  intros V K H. destruct left as [l|l ld|l], b as [x|x d|x]; try destruct K; cbn [process_budget] in H.
  - apply bind_ok in H as (rem & H1 & H2). apply mk_pure_inv in H1 as (y & -> & H1). right. exists (Pure y).
    split; [exact (down_le _ _ V H1)|exact (adjusted_budget_ok R _ _ _ H2)].
  - destruct (is_infinite (Approx x d)) eqn:I.
    + left. split; [apply is_infinite_iff, I|]. apply mk_approx_inv in H as (y & z & -> & H1 & H2). cbn in H1, H2. injection H1 as <-. left. reflexivity.
    + apply bind_ok in H as (req & H0 & H). apply bind_ok in H as (rem & H1 & H2).
      apply mk_approx_inv in H0 as (x' & d' & -> & X1 & X2).
      injection X1 as <-. injection X2 as <-. apply mk_approx_inv in H1 as (y & z & -> & H1 & H3). right. exists (Approx y z). destruct V as (V1 & V2 & _).
      split; [split; [exact (down_le _ _ V1 H1)|exact (down_le _ _ V2 H3)]|exact (adjusted_budget_ok R _ _ _ H2)].
  - apply bind_ok in H as (rem & H1 & H2). apply mk_zcdp_inv in H1 as (y & -> & H1). right. exists (Zcdp y).
    split; [exact (down_le l _ V H1)|exact (adjusted_budget_ok R _ _ _ H2)].
Qed.
Lemma compile_charge s pub q b adj : valid (s_left s) ->
  compile_and_get_info E s pub q b = Ok adj -> charge_for (s_left s) (request (s_left s) b) adj.
Proof.
  intros V H. unfold compile_and_get_info in H. apply bind_ok in H as (b1 & H1 & H). apply bind_ok in H as ([] & H2 & H). apply bind_ok in H as (u & _ & H).
  apply bind_ok in H as (adj' & H3 & H). repeat (apply bind_ok in H as (? & ? & H)). injection H as <-.
  pose proof (lift_request _ _ _ H1) as ->. apply process_charge; auto. now apply (validate_kind _ _ tt).
Qed.
(** The charge fits what is left. *)
Lemma charge_left l b c : charge_for l b c -> same_kind l b -> forall f, component f -> infinite b \/ xle (f c) (f b).
Proof.
  intros [(A & _)|(rem & L & H)] K f CF; [auto|]. right. apply adjusted_componentwise_le in H.
  destruct b, c; cbn in H; try contradiction; destruct CF as [-> | ->]; cbn in *; try tauto; lra.
Qed.

(** ** The sessions that a call does not charge *)
Definition account (s : sess) : budget * budget * list charge := (s_initial s, s_left s, s_log s).
Definition charged_op (o : op) : bool := match o with Evaluate _ _ _ | SpendOnly _ _ _ | Partition _ _ _ _ _ => true | _ => false end.
Lemma effect_others st o st' r q s : effect E st o st' r -> session st q s -> (q <> target o \/ charged_op o = false) ->
  exists s', session st' q s' /\ account s' = account s.
Proof.
  intros H S NT. destruct H as [o st' e Q|p st' r Q _|p q0 b s0 adj rest st1 o K S0 C SP RE RD|p n f f' s0 names S0 I PS D M CS
    |p q0 n c s0 names cat data y x1 z z' x4 st1 S0 I PS M D CA DA BT AT AR RN RN2 RD|p n s0 r cols x1 x2 st1 S0 F L RN DT RD
    |p src b col sp s0 b1 adj y rest space r st1 S0 LP V I PB CP SP RD G]; unfold session in *; cbn [st_root set_root target charged_op] in *.
  - exists s. split; [eapply keeps_data; [apply Q|exact S]|reflexivity].
  - exists s. split; [eapply keeps_data; [apply Q|exact S]|reflexivity].
  - assert (NE : q <> p) by (destruct K as [-> | ->]; cbn in NT; destruct NT; congruence).
    exists s. split; [|reflexivity]. apply data_set_other; [exact NE|]. eapply keeps_data; [apply RD|exact S].
  - eauto.
  - destruct (list_eq_dec (fun a b : nat * nat => ltac:(decide equality; apply Nat.eq_dec)) q p) as [->|NE].
    + apply session_at_iff in S0. assert (s0 = s) as -> by (destruct S as (c1 & F1 & <-), S0 as (c2 & F2 & <-); congruence).
      exists (with_tables s x4 (dset n (snd y) (s_cons s))). split; [|reflexivity]. eapply keeps_data in S; [|apply RD]. destruct S as (c1 & F1 & D1). eexists. split; [rewrite find_change, F1; reflexivity|reflexivity].
    + exists s. split; [|reflexivity]. apply data_set_other; [exact NE|]. eapply keeps_data; [apply RD|exact S].
  - destruct (list_eq_dec (fun a b : nat * nat => ltac:(decide equality; apply Nat.eq_dec)) q p) as [->|NE].
    + apply session_at_iff in S0. assert (s0 = s) as -> by (destruct S as (c1 & F1 & <-), S0 as (c2 & F2 & <-); congruence).
      exists (with_tables s x2 (ddel n (s_cons s))). split; [|reflexivity]. eapply keeps_data in S; [|apply RD]. destruct S as (c1 & F1 & D1). eexists. split; [rewrite find_change, F1; reflexivity|reflexivity].
    + exists s. split; [|reflexivity]. apply data_set_other; [exact NE|]. eapply keeps_data; [apply RD|exact S].
  - assert (NE : q <> p) by (destruct NT; congruence).
    exists s. split; [|reflexivity]. apply data_split_other; [exact NE|]. eapply keeps_data; [apply RD|exact S].
Qed.
End Charge.
