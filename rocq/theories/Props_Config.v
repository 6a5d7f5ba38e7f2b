(** Property C35: feature-flag contexts restore the previous state. *)
From Coq Require Import String Bool Arith Lia List.
From Verif Require Import Prelude Config.
Import ListNotations.
Local Open Scope string_scope.

(** ** Specification *)

(** Outside of contexts of flag [n], the program does not set it. *)
Fixpoint tidy (n : string) (p : stmt) : Prop :=
  match p with
  | Enable m | Disable m | Reset m => m <> n
  | Seq a b | Choice a b | IfFlag _ a b | Try a b => tidy n a /\ tidy n b
  | Loop a => tidy n a
  | WithEnabled m a | WithDisabled m a => m = n \/ tidy n a
  | _ => True
  end.
(** The program only sets flag [n] to [v]. *)
Fixpoint only_sets (n : string) (v : bool) (p : stmt) : Prop :=
  match p with
  | Enable m => m <> n \/ v = true
  | Disable m => m <> n \/ v = false
  | Reset m => m <> n
  | Seq a b | Choice a b | IfFlag _ a b | Try a b => only_sets n v a /\ only_sets n v b
  | Loop a => only_sets n v a
  | WithEnabled m a => (m <> n \/ v = true) /\ only_sets n v a
  | WithDisabled m a => (m <> n \/ v = false) /\ only_sets n v a
  | _ => True
  end.

(** ** Proofs *)

Lemma set_same n v s : f_enabled (set_flag n v s n) = v /\ f_default (set_flag n v s n) = f_default (s n).
Proof. unfold set_flag. rewrite String.eqb_refl. auto. Qed.
Lemma set_other n v s m : m <> n -> set_flag n v s m = s m.
Proof. intros H. unfold set_flag. apply String.eqb_neq in H. now rewrite H. Qed.
Lemma exec_default p s o s' : exec p s o s' -> forall n, f_default (s' n) = f_default (s n).
Proof.
  assert (D : forall m v s n, f_default (set_flag m v s n) = f_default (s n)) by (intros m v s0 n; unfold set_flag; destruct (String.eqb n m); reflexivity).
  induction 1; intros k; unfold enable, disable, reset in *; rewrite ?D; try reflexivity; try congruence; try (rewrite IHexec, ?D; reflexivity).
Qed.
Lemma flag_eq (a b : flag) : f_default a = f_default b -> f_enabled a = f_enabled b -> a = b.
Proof. destruct a, b. cbn. congruence. Qed.

(** However the body of a context ends, and whatever it did with any flag and any contexts,
    the flag is afterwards exactly as it was before (also "never set" is told from "set to
    the default"); other flags are as the body left them. *)
Theorem C35_contexts_restore_the_flag : forall n body s o s',
  exec (WithEnabled n body) s o s' \/ exec (WithDisabled n body) s o s' -> s' n = s n.
Proof.
  intros n body s o s' [H|H]; pose proof (exec_default _ _ _ _ H n) as D; inversion H; subst; apply flag_eq; try exact D; apply set_same.
Qed.
Print Assumptions C35_contexts_restore_the_flag.
(** Inside, the flag is what the context's name says, and the context ends as its body does. *)
Theorem C35_inside_the_flag_is_set : forall n body s o s',
  (exec (WithEnabled n body) s o s' <-> exists s1, exec body (enable n s) o s1 /\ s' = set_flag n (f_enabled (s n)) s1)
  /\ (exec (WithDisabled n body) s o s' <-> exists s1, exec body (disable n s) o s1 /\ s' = set_flag n (f_enabled (s n)) s1).
Proof.
  intros n body s o s'. split; split.
  - intros H. inversion H; subst. eauto.
  - intros (s1 & H & ->). apply x_with_enabled, H.
  - intros H. inversion H; subst. eauto.
  - intros (s1 & H & ->). apply x_with_disabled, H.
Qed.
Print Assumptions C35_inside_the_flag_is_set.
(** A whole program, with any nesting of contexts of any flags, loops, caught and uncaught
    exceptions and returns, leaves a flag as it was if it sets it in contexts of it only. *)
Theorem C35_programs_restore_the_flag : forall n p s o s', tidy n p -> exec p s o s' -> s' n = s n.
Proof.
  intros n p s o s' T H. induction H; cbn in T; try reflexivity; try (apply set_other; congruence); try (apply IHexec; tauto).
  - rewrite IHexec2, IHexec1; tauto.
  - rewrite IHexec2, IHexec1; tauto.
  - rewrite IHexec2, IHexec1; tauto.
  - destruct (String.eqb_spec n0 n) as [->|NE].
    + eapply C35_contexts_restore_the_flag. left. apply x_with_enabled. exact H.
    + rewrite set_other by congruence. rewrite IHexec by tauto. apply set_other. congruence.
  - destruct (String.eqb_spec n0 n) as [->|NE].
    + eapply C35_contexts_restore_the_flag. right. apply x_with_disabled. exact H.
    + rewrite set_other by congruence. rewrite IHexec by tauto. apply set_other. congruence.
Qed.
Print Assumptions C35_programs_restore_the_flag.
(** The check raises exactly when the flag is off. *)
Theorem C35_check_raises_when_off : forall n s o s', exec (RaiseIfDisabled n) s o s' <->
  s' = s /\ o = (match f_enabled (s n) with Some true => Done | Some false => Raised | None => if f_default (s n) then Done else Raised end).
Proof.
  intros n s o s'. unfold raise_if_disabled. split.
  - intros H. inversion H as [| | | |? ? R|? ? ? R| | | | | | | | | | | | | | | | |]; subst; unfold raise_if_disabled, truth in R; split; try reflexivity; destruct (f_enabled (s' n)) as [[]|]; try discriminate; try reflexivity;
      destruct (f_default (s' n)); try discriminate; reflexivity.
  - intros (-> & ->). destruct (f_enabled (s n)) as [[]|] eqn:F; [| |destruct (f_default (s n)) eqn:D].
    1,3: apply x_check_ok; unfold raise_if_disabled, truth; rewrite F, ?D; reflexivity.
    all: apply (x_check_err _ _ RuntimeError); unfold raise_if_disabled, truth; rewrite F, ?D; reflexivity.
Qed.
Print Assumptions C35_check_raises_when_off.
(** In an enabled() context whose body sets the flag to enabled only, however deep, every
    check of the flag finds it on, and dually for disabled(). *)
Theorem C35_flag_stays_set_inside : forall n v p s o s', only_sets n v p -> f_enabled (s n) = Some v -> exec p s o s' -> f_enabled (s' n) = Some v.
Proof.
  intros n v p s o s' T F H. assert (Z : forall m w s, f_enabled (s n) = Some v -> m <> n \/ v = w -> f_enabled (set_flag m (Some w) s n) = Some v).
  { intros m w s0 F0 D. destruct (String.eqb_spec m n) as [->|NE]; [|rewrite set_other by congruence; exact F0]. destruct D as [D| ->]; [congruence|]. apply set_same. }
  induction H; cbn in T; try exact F; try (apply Z; tauto); try (apply IHexec; tauto); try (apply IHexec2; [tauto|apply IHexec1; tauto]).
  - unfold reset. rewrite set_other by congruence. exact F.
  - destruct (String.eqb_spec n0 n) as [->|NE]; [rewrite (proj1 (set_same n _ _)); exact F|]. rewrite set_other by congruence. apply IHexec; [tauto|]. rewrite set_other by congruence. exact F.
  - destruct (String.eqb_spec n0 n) as [->|NE]; [rewrite (proj1 (set_same n _ _)); exact F|]. rewrite set_other by congruence. apply IHexec; [tauto|]. rewrite set_other by congruence. exact F.
Qed.
Print Assumptions C35_flag_stays_set_inside.

(** Contexts entered and left one at a time: if what happens between entering a context and
    leaving it is any sequence of events, the flag is restored. *)
Theorem C35_leaving_restores : forall s saved n v between,
  let m := happens (s, saved) (Enter n v :: between ++ [Leave (length saved)]) in fst m n = s n.
Proof.
  intros s saved n v l m. subst m. unfold happens. cbn [fold_left happen app]. rewrite fold_left_app.
  assert (G : forall l s1 sv, (forall k, f_default (fst (fold_left happen l (s1, sv)) k) = f_default (s1 k)) /\ (exists more, snd (fold_left happen l (s1, sv)) = (sv ++ more)%list)).
  { clear. assert (D : forall m v (s : flags) n, f_default (set_flag m v s n) = f_default (s n)) by (intros m v s0 n; unfold set_flag; destruct (String.eqb n m); reflexivity).
    induction l as [|e l IH]; intros s1 sv; [split; [reflexivity|exists []; symmetry; apply app_nil_r]|]. cbn [fold_left]. destruct e as [n v|n v|k]; cbn [happen].
    - destruct (IH (set_flag n v s1) sv) as (A & B). split; [intros k; rewrite A; apply D|exact B].
    - destruct (IH (set_flag n (Some v) s1) (sv ++ [(n, f_enabled (s1 n))])%list) as (A & more & B). split; [intros k; rewrite A; apply D|]. rewrite B. rewrite <- app_assoc. eauto.
    - destruct (nth_error sv k) as [(n, v)|]; [|apply IH]. destruct (IH (set_flag n v s1) sv) as (A & B). split; [intros j; rewrite A; apply D|exact B]. }
  destruct (G l (set_flag n (Some v) s) (saved ++ [(n, f_enabled (s n))])%list) as (A & more & B). destruct (fold_left happen l _) as (s2, sv2). cbn [fst snd] in A, B. subst sv2. cbn [fold_left happen].
  rewrite <- app_assoc. rewrite nth_error_app2 by lia. rewrite Nat.sub_diag. cbn [nth_error app fst]. apply flag_eq; [|apply set_same].
  rewrite (proj2 (set_same n _ _)), A. apply (set_same n).
Qed.
Print Assumptions C35_leaving_restores.
(** Contexts that are not nested do not restore the flag once all are left: outside of the
    property's scope, which is well-nested programs. *)
Theorem C35_crossing_contexts_refuted : exists s l, l = [Enter "f" true; Enter "f" false; Leave 0; Leave 1] /\ fst (happens (s, []) l) "f" <> s "f".
Proof. exists (fun _ => {| f_default := false; f_enabled := None |}). eexists. split; [reflexivity|]. cbn. discriminate. Qed.
Print Assumptions C35_crossing_contexts_refuted.

(** Non-vacuity: an exception out of two contexts and a handler, with the flag reset and
    disabled on the way; the check inside raises. *)
Definition nested : stmt :=
  Try (WithEnabled "f" (Seq (WithDisabled "g" (Seq (RaiseIfDisabled "f") (Reset "f"))) (Seq (WithDisabled "f" (RaiseIfDisabled "f")) (Disable "f"))))
      (WithEnabled "f" (Loop (Enable "f"))).
Example C35_case : tidy "f" nested /\ tidy "g" nested /\ exists s', exec nested (fun _ => {| f_default := false; f_enabled := None |}) Done s'
  /\ f_enabled (s' "f") = None.
Proof.
  split; [cbn; tauto|]. split; [cbn; intuition discriminate|]. eexists. split.
  - eapply x_caught.
    + eapply x_with_enabled. eapply x_seq.
      * eapply x_with_disabled. eapply x_seq; [apply x_check_ok; reflexivity|apply x_reset].
      * apply x_seq_stop; [|discriminate]. eapply x_with_disabled. eapply x_check_err. reflexivity.
    + eapply x_with_enabled. eapply x_loop; [apply x_enable|apply x_loop_end].
  - reflexivity.
Qed.
