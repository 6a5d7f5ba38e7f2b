(** Invariants of the accountant tree. *)
From Coq Require Import String Bool Arith ZArith Lia List.
From Verif Require Import Prelude Accountant.
Import ListNotations.
Local Open Scope nat_scope.

Section Proofs.
Context {S : Type}.
Notation acct := (acct S).

(** ** Specification *)

(** The accountant at a place has a state. *)
Definition state_at (t : acct) (p : path) (st : astate) : Prop := exists c, find p t = Some c /\ a_state c = st.
(** The payload at a place. *)
Definition data_at (t : acct) (p : path) (s : S) : Prop := exists c, find p t = Some c /\ a_data c = s.

Inductive all_retired : acct -> Prop :=
| AllRetired s parts : (forall part c, In part parts -> In c part -> all_retired c) -> all_retired (Acct RETIRED s parts).
Definition finished (parts : list (list acct)) : Prop := forall part c, In part parts -> In c part -> all_retired c.
Definition untouched (c : acct) : Prop := exists s, c = Acct WAITING_FOR_SIBLING s [].
(** One chain of accountants waiting for their children leads to the active one. *)
Inductive live : acct -> Prop :=
| LiveActive s parts : finished parts -> live (Acct ACTIVE s parts)
| LiveWaiting s parts pre x post : finished parts -> (forall c, In c pre -> all_retired c) -> live x ->
    (forall c, In c post -> untouched c) ->
    live (Acct WAITING_FOR_CHILDREN s (parts ++ [pre ++ x :: post])).
Definition ok (t : acct) : Prop := live t \/ all_retired t.

(** ** Lists *)

Lemma upd_length {A} (f : A -> A) : forall l i, length (upd i f l) = length l.
Proof. induction l as [|x l IH]; intros [|i]; cbn; [reflexivity..|]. now rewrite IH. Qed.
Lemma nth_upd_same {A} (f : A -> A) : forall l i, nth_error (upd i f l) i = option_map f (nth_error l i).
Proof. induction l as [|x l IH]; intros [|i]; cbn; [reflexivity..|]. apply IH. Qed.
Lemma nth_upd_other {A} (f : A -> A) : forall l i j, i <> j -> nth_error (upd i f l) j = nth_error l j.
Proof.
  induction l as [|x l IH]; intros [|i] [|j] N; cbn; try reflexivity; [congruence|]. apply IH. congruence.
Qed.
Lemma upd_app_right {A} (f : A -> A) l l' i : upd (length l + i) f (l ++ l') = l ++ upd i f l'.
Proof. induction l as [|x l IH]; [reflexivity|]. cbn. now rewrite IH. Qed.
Lemma upd_mid {A} (f : A -> A) l x l' : upd (length l) f (l ++ x :: l') = l ++ f x :: l'.
Proof. rewrite <- (Nat.add_0_r (length l)), upd_app_right. reflexivity. Qed.
Lemma upd_upd {A} (f g : A -> A) : forall l i, upd i f (upd i g l) = upd i (fun x => f (g x)) l.
Proof. induction l as [|x l IH]; intros [|i]; cbn; [reflexivity..|]. now rewrite IH. Qed.
Lemma nth_mid {A} (l : list A) x l' : nth_error (l ++ x :: l') (length l) = Some x.
Proof. rewrite nth_error_app2, Nat.sub_diag; [reflexivity|lia]. Qed.

(** ** find and change *)

Lemma find_app p : forall q (t : acct), find (p ++ q) t = match find p t with Some c => find q c | None => None end.
Proof.
  induction p as [|(k, i) p IH]; intros q t; [reflexivity|]. cbn. destruct (nth_error (a_parts t) k) as [part|]; [|reflexivity].
  destruct (nth_error part i) as [c|]; [apply IH|reflexivity].
Qed.
Lemma nth_upd2 {A} (f : A -> A) (l : list (list A)) k i :
  match nth_error (upd k (upd i f) l) k with Some part => nth_error part i | None => None end
  = option_map f (match nth_error l k with Some part => nth_error part i | None => None end).
Proof. rewrite nth_upd_same. destruct (nth_error l k) as [part|]; [|reflexivity]. cbn. apply nth_upd_same. Qed.
Lemma nth_upd2_other {A} (f : A -> A) (l : list (list A)) k i k' i' : (k, i) <> (k', i') ->
  match nth_error (upd k (upd i f) l) k' with Some part => nth_error part i' | None => None end
  = match nth_error l k' with Some part => nth_error part i' | None => None end.
Proof.
  intros N. destruct (Nat.eq_dec k k') as [<-|Nk]; [|now rewrite nth_upd_other].
  rewrite nth_upd_same. destruct (nth_error l k) as [part|]; [|reflexivity]. cbn. apply nth_upd_other. congruence.
Qed.
Lemma find_step (t : acct) k i p : find ((k, i) :: p) t
  = match (match nth_error (a_parts t) k with Some part => nth_error part i | None => None end) with Some c => find p c | None => None end.
Proof. cbn. destruct (nth_error (a_parts t) k) as [part|]; [|reflexivity]. destruct (nth_error part i); reflexivity. Qed.
Lemma find_change f p : forall t : acct, find p (change p f t) = option_map f (find p t).
Proof.
  induction p as [|(k, i) p IH]; intros t; [reflexivity|]. rewrite !find_step. cbn [change a_parts].
  rewrite nth_upd2. destruct (match nth_error (a_parts t) k with Some part => nth_error part i | None => None end) as [c|]; [|reflexivity].
  cbn. apply IH.
Qed.
(** A place neither below [p] nor [p] itself keeps state and payload. *)
Lemma find_change_other f p : forall q (t : acct), (forall r, q <> (p ++ r)%list) ->
  option_map (fun c => (a_state c, a_data c)) (find q (change p f t)) = option_map (fun c => (a_state c, a_data c)) (find q t).
Proof.
  induction p as [|(k, i) p IH]; intros q t N; [exfalso; apply (N q); reflexivity|].
  destruct q as [|(k', i') q]; [reflexivity|]. rewrite !find_step. cbn [change a_parts].
  destruct (Nat.eq_dec k k') as [<-|Nk]; [destruct (Nat.eq_dec i i') as [<-|Ni]|].
  - rewrite nth_upd2. destruct (match nth_error (a_parts t) k with Some part => nth_error part i | None => None end) as [c|]; [|reflexivity].
    cbn. apply IH. intros r E. apply (N r). cbn. now rewrite E.
  - rewrite nth_upd2_other by congruence. reflexivity.
  - rewrite nth_upd2_other by congruence. reflexivity.
Qed.
Lemma find_change_below f p : forall r (t : acct), find (p ++ r) (change p f t) = match find p t with Some c => find r (f c) | None => None end.
Proof. intros r t. rewrite find_app, find_change. destruct (find p t); reflexivity. Qed.

(** ** Retired trees *)

Fixpoint acct_ind' (P : acct -> Prop)
  (H : forall st s parts, (forall part c, In part parts -> In c part -> P c) -> P (Acct st s parts)) (t : acct) : P t.
Proof.
  destruct t as [st s parts]. apply H. induction parts as [|part parts IH]; [intros ? ? []|].
  intros part' c [<-|I]; [|exact (IH part' c I)]. clear IH. induction part as [|x part IH]; [intros []|].
  intros [<-|I]; [apply acct_ind'; exact H|exact (IH I)].
Defined.
Lemma retire_all_retired : forall t, all_retired (retire_all t).
Proof.
  apply acct_ind'. intros st s parts IH. cbn. constructor. intros part c I J.
  apply in_map_iff in I as (part0 & <- & I). apply in_map_iff in J as (c0 & <- & J). eauto.
Qed.
Lemma retired_find t p c : all_retired t -> find p t = Some c -> all_retired c.
Proof.
  revert t. induction p as [|(k, i) p IH]; intros t R F; [injection F as <-; exact R|].
  cbn in F. destruct (nth_error (a_parts t) k) as [part|] eqn:E1; [|discriminate]. destruct (nth_error part i) as [d|] eqn:E2; [|discriminate].
  apply nth_error_In in E1, E2. inversion R; subst. cbn in E1. apply (IH d); [eauto|exact F].
Qed.
Lemma retired_state t : all_retired t -> a_state t = RETIRED.
Proof. intros []; reflexivity. Qed.
Lemma finished_find parts k i part c : finished parts -> nth_error parts k = Some part -> nth_error part i = Some c -> all_retired c.
Proof. intros F E1 E2. apply nth_error_In in E1, E2. eauto. Qed.
Lemma finished_retire parts : finished (map (map retire_all) parts).
Proof. intros part c I J. apply in_map_iff in I as (part0 & <- & _). apply in_map_iff in J as (c0 & <- & _). apply retire_all_retired. Qed.
Lemma retire_all_id : forall t, all_retired t -> retire_all t = t.
Proof.
  apply (acct_ind' (fun t => all_retired t -> retire_all t = t)). intros st s parts IH R. inversion R as [? ? F]; subst. cbn. f_equal.
  rewrite <- (map_id parts) at 2. apply map_ext_in. intros part I. rewrite <- (map_id part) at 2. apply map_ext_in.
  intros c J. eapply IH; eauto.
Qed.
Lemma live_not_retired t : live t -> a_state t <> RETIRED.
Proof. intros []; discriminate. Qed.
Lemma retired_not_live t : all_retired t -> ~ live t.
Proof. intros R L. apply (live_not_retired _ L), (retired_state _ R). Qed.

Lemma find_retire_all p : forall t : acct, option_map a_data (find p (retire_all t)) = option_map a_data (find p t)
  /\ (forall c, find p (retire_all t) = Some c -> a_state c = RETIRED).
Proof.
  intros t. split; [|intros c F; apply retired_state; eapply retired_find; [apply retire_all_retired|exact F]].
  revert t. induction p as [|(k, i) p IH]; intros [st s parts]; [reflexivity|]. rewrite !find_step. cbn [retire_all a_parts].
  rewrite nth_error_map. destruct (nth_error parts k) as [part|]; [|reflexivity]. cbn [option_map]. rewrite nth_error_map.
  destruct (nth_error part i) as [c|]; [|reflexivity]. cbn [option_map]. apply IH.
Qed.

(** Where the accountants that can be used are. *)
Lemma live_cases t k i p c : live t -> find ((k, i) :: p) t = Some c -> ~ all_retired c ->
  exists s parts pre x post, t = Acct WAITING_FOR_CHILDREN s (parts ++ [pre ++ x :: post])
    /\ k = length parts /\ finished parts /\ (forall c, In c pre -> all_retired c) /\ live x /\ (forall c, In c post -> untouched c)
    /\ ((i = length pre /\ find p x = Some c) \/ (exists l1 l2, post = (l1 ++ c :: l2)%list /\ i = length pre + Datatypes.S (length l1) /\ p = [])).
Proof.
  intros L F N. cbn in F. destruct (nth_error (a_parts t) k) as [part|] eqn:E1; [|discriminate]. destruct (nth_error part i) as [d|] eqn:E2; [|discriminate].
  inversion L as [s parts FI|s parts pre x post FI PR LX PO]; subst; cbn in E1.
  - exfalso. apply N. eapply retired_find; [eapply finished_find; eassumption|exact F].
  - exists s, parts, pre, x, post. split; [reflexivity|]. destruct (lt_eq_lt_dec k (length parts)) as [[K|K]|K].
    + exfalso. rewrite nth_error_app1 in E1 by exact K. apply N. eapply retired_find; [eapply finished_find; eassumption|exact F].
    + subst k. rewrite nth_mid in E1. injection E1 as <-. split; [reflexivity|]. split; [exact FI|]. split; [exact PR|]. split; [exact LX|].
      split; [exact PO|]. destruct (lt_eq_lt_dec i (length pre)) as [[K|K]|K].
      * exfalso. rewrite nth_error_app1 in E2 by exact K. apply N. eapply retired_find; [apply PR; eapply nth_error_In; exact E2|exact F].
      * left. subst i. rewrite nth_mid in E2. injection E2 as <-. auto.
      * right. rewrite nth_error_app2 in E2 by lia. destruct (i - length pre) as [|j] eqn:J; [lia|]. cbn in E2.
        pose proof (PO d (nth_error_In _ _ E2)) as (s0 & ->). apply nth_error_split in E2 as (l1 & l2 & E2 & LL).
        destruct p as [|(k', i') p]; [|cbn in F; destruct k'; discriminate F]. injection F as <-. exists l1, l2. split; [exact E2|]. split; [lia|reflexivity].
    + exfalso. assert (nth_error (parts ++ [pre ++ x :: post]) k = None) as X by (apply nth_error_None; rewrite app_length; cbn; lia). congruence.
Qed.

Definition usable (t : acct) (p : path) : Prop := exists c, find p t = Some c /\ ~ all_retired c.
Lemma ok_find_cases : forall p t c, live t -> find p t = Some c -> all_retired c \/ live c \/ untouched c.
Proof.
  induction p as [|(k, i) p IH]; intros t c L F; [injection F as <-; auto|].
  assert (X : all_retired c \/ ~ all_retired c).
  { destruct (a_state c) eqn:E; try (right; intros R; apply retired_state in R; congruence).
    cbn in F. destruct (nth_error (a_parts t) k) as [part|] eqn:E1; [|discriminate]. destruct (nth_error part i) as [d|] eqn:E2; [|discriminate].
    inversion L as [s parts FI|s parts pre x post FI PR LX PO]; subst; cbn in E1.
    - left. eapply retired_find; [eapply finished_find; eassumption|exact F].
    - destruct (lt_eq_lt_dec k (length parts)) as [[K|K]|K].
      + left. rewrite nth_error_app1 in E1 by exact K. eapply retired_find; [eapply finished_find; eassumption|exact F].
      + subst k. rewrite nth_mid in E1. injection E1 as <-. destruct (lt_eq_lt_dec i (length pre)) as [[K|K]|K].
        * left. rewrite nth_error_app1 in E2 by exact K. eapply retired_find; [apply PR; eapply nth_error_In; exact E2|exact F].
        * subst i. rewrite nth_mid in E2. injection E2 as <-. destruct (IH _ _ LX F) as [R|[R|(s0 & R)]]; [now left| |].
          -- exfalso. apply (live_not_retired _ R E).
          -- subst c. discriminate E.
        * rewrite nth_error_app2 in E2 by lia. destruct (i - length pre) as [|j] eqn:J; [lia|]. cbn in E2.
          destruct (PO d (nth_error_In _ _ E2)) as (s0 & ->). destruct p as [|(k', i') p]; [|cbn in F; destruct k'; discriminate F].
          injection F as <-. discriminate E.
      + exfalso. assert (nth_error (parts ++ [pre ++ x :: post]) k = None) as X by (apply nth_error_None; rewrite app_length; cbn; lia). congruence. }
  destruct X as [R|N]; [now left|]. destruct (live_cases _ _ _ _ _ L F N) as (s & parts & pre & x & post & -> & -> & FI & PR & LX & PO & C).
  destruct C as [(-> & F')|(l1 & l2 & -> & -> & ->)]; [eauto|]. right. right. apply PO. rewrite in_app_iff. right. now left.
Qed.
(** In a well-formed tree an accountant is retired exactly when its state says so. *)
Lemma retired_iff t p c : ok t -> find p t = Some c -> (a_state c = RETIRED <-> all_retired c).
Proof.
  intros [L|R] F; [|split; intros; [eapply retired_find; eassumption|now apply retired_state]].
  split; [|apply retired_state]. intros E. destruct (ok_find_cases _ _ _ L F) as [R|[R|(s & ->)]]; [exact R| |discriminate].
  exfalso. exact (live_not_retired _ R E).
Qed.

(** ** force_activate *)

Lemma force_nonnil k i p (t : acct) : p <> [] ->
  force_activate ((k, i) :: p) t = Acct (a_state t) (a_data t) (upd k (upd i (force_activate p)) (a_parts t)).
Proof. destruct p; [congruence|reflexivity]. Qed.
Lemma untouched_not_retired c : untouched c -> ~ all_retired c.
Proof. intros (s & ->) R. apply retired_state in R. discriminate. Qed.
Lemma reclaim_live t : live (reclaim t).
Proof. constructor. apply finished_retire. Qed.

Lemma force_live : forall p t c, live t -> find p t = Some c -> ~ all_retired c ->
  live (force_activate p t) /\ state_at (force_activate p t) p ACTIVE.
Proof.
  induction p as [|(k, i) p IH]; intros t c L F N.
  - cbn. split; [apply reclaim_live|]. exists (reclaim t). split; reflexivity.
  - destruct (live_cases _ _ _ _ _ L F N) as (s & parts & pre & x & post & -> & -> & FI & PR & LX & PO & C).
    destruct C as [(-> & F')|(l1 & l2 & -> & -> & ->)].
    + destruct p as [|e p].
      * injection F' as <-. cbn [force_activate]. rewrite F.
        assert (E : (match a_state x with
                     | WAITING_FOR_SIBLING => Acct (a_state (Acct WAITING_FOR_CHILDREN s (parts ++ [pre ++ x :: post])))
                         (a_data (Acct WAITING_FOR_CHILDREN s (parts ++ [pre ++ x :: post])))
                         (upd (length parts) (skip_to (length pre)) (a_parts (Acct WAITING_FOR_CHILDREN s (parts ++ [pre ++ x :: post]))))
                     | _ => change [(length parts, length pre)] reclaim (Acct WAITING_FOR_CHILDREN s (parts ++ [pre ++ x :: post])) end)
                    = Acct WAITING_FOR_CHILDREN s (parts ++ [pre ++ reclaim x :: post])).
        { replace (match a_state x with WAITING_FOR_SIBLING => _ | _ => _ end) with (change [(length parts, length pre)] reclaim (Acct WAITING_FOR_CHILDREN s (parts ++ [pre ++ x :: post]))).
          - cbn. now rewrite upd_mid, upd_mid.
          - inversion LX; subst; reflexivity. }
        rewrite E. split.
        -- constructor; auto. apply reclaim_live.
        -- exists (reclaim x). split; [|reflexivity]. cbn. now rewrite nth_mid, nth_mid.
      * rewrite force_nonnil by discriminate. cbn [a_state a_data a_parts]. rewrite upd_mid, upd_mid.
        destruct (IH x c LX F' N) as (L' & (c' & F'' & E')). split; [constructor; auto|].
        exists c'. split; [|exact E']. cbn [find a_parts]. rewrite nth_mid, nth_mid. exact F''.
    + assert (U : untouched c) by (apply PO; rewrite in_app_iff; right; now left). destruct U as (s0 & ->).
      cbn [force_activate]. rewrite F. cbn [a_state a_data a_parts]. rewrite upd_mid. unfold skip_to.
      assert (E : (pre ++ x :: l1 ++ Acct WAITING_FOR_SIBLING s0 [] :: l2)%list = ((pre ++ x :: l1) ++ Acct WAITING_FOR_SIBLING s0 [] :: l2)%list)
        by (rewrite <- app_assoc; reflexivity).
      rewrite E. assert (LE : length pre + Datatypes.S (length l1) = length (pre ++ x :: l1)) by (rewrite app_length; cbn; lia).
      rewrite LE, firstn_app, firstn_all, Nat.sub_diag, skipn_app, skipn_all, Nat.sub_diag. cbn [firstn skipn app upd set_state a_data a_parts]. rewrite app_nil_r.
      split.
      * constructor; auto.
        -- intros c' I. apply in_map_iff in I as (c0 & <- & _). apply retire_all_retired.
        -- constructor. intros ? ? [].
        -- intros c' I. apply PO. rewrite in_app_iff. right. now right.
      * exists (Acct ACTIVE s0 []). split; [|reflexivity]. cbn [find a_parts]. rewrite nth_mid.
        rewrite <- (map_length retire_all (pre ++ x :: l1)), nth_mid. reflexivity.
Qed.

(** What happens to the other accountants: payloads are kept, and states only become
    RETIRED. *)
Definition evolves (p : path) (t t' : acct) : Prop := forall q,
  option_map a_data (find q t') = option_map a_data (find q t)
  /\ (q <> p -> forall c c', find q t = Some c -> find q t' = Some c' -> a_state c' = a_state c \/ a_state c' = RETIRED).
Lemma evolves_refl p t : evolves p t t.
Proof. intros q. split; [reflexivity|]. intros _ c c' E E'. left. congruence. Qed.
Lemma evolves_reclaim t : evolves [] t (reclaim t).
Proof.
  intros q. destruct t as [st s parts]. destruct q as [|(k, i) q]; [split; [reflexivity|congruence]|].
  rewrite !find_step. cbn [reclaim a_parts a_data]. rewrite nth_error_map. destruct (nth_error parts k) as [part|]; [|split; [reflexivity|discriminate]].
  cbn [option_map]. rewrite nth_error_map. destruct (nth_error part i) as [c|]; [|split; [reflexivity|discriminate]]. cbn [option_map].
  destruct (find_retire_all q c) as (A & B). split; [exact A|]. intros _ c1 c2 _ F. right. exact (B _ F).
Qed.
Lemma evolves_down k i p (t : acct) f : (forall c, (match nth_error (a_parts t) k with Some part => nth_error part i | None => None end) = Some c -> evolves p c (f c)) ->
  evolves ((k, i) :: p) t (Acct (a_state t) (a_data t) (upd k (upd i f) (a_parts t))).
Proof.
  intros H q. destruct q as [|(k', i') q]; [split; [reflexivity|]; intros _ c c' [= <-] [= <-]; now left|].
  rewrite !find_step. cbn [a_parts].
  destruct (Nat.eq_dec k k') as [<-|Nk]; [destruct (Nat.eq_dec i i') as [<-|Ni]|].
  - rewrite nth_upd2. destruct (match nth_error (a_parts t) k with Some part => nth_error part i | None => None end) as [c|] eqn:E; [|split; [reflexivity|discriminate]].
    cbn [option_map]. destruct (H c eq_refl q) as (A & B). split; [exact A|]. intros N. apply B. congruence.
  - rewrite nth_upd2_other by congruence. split; [reflexivity|]. intros _ c c' E E'. left. congruence.
  - rewrite nth_upd2_other by congruence. split; [reflexivity|]. intros _ c c' E E'. left. congruence.
Qed.
Lemma evolves_skip k i (t : acct) : evolves [(k, i)] t (Acct (a_state t) (a_data t) (upd k (skip_to i) (a_parts t))).
Proof.
  intros q. destruct q as [|(k', i') q]; [split; [reflexivity|]; intros _ c c' [= <-] [= <-]; now left|].
  rewrite !find_step. cbn [a_parts].
  destruct (Nat.eq_dec k k') as [<-|Nk]; [|rewrite nth_upd_other by exact Nk; split; [reflexivity|]; intros _ c c' E E'; left; congruence].
  rewrite nth_upd_same. destruct (nth_error (a_parts t) k) as [part|]; [|split; [reflexivity|discriminate]]. cbn [option_map]. unfold skip_to.
  destruct (Nat.lt_ge_cases i' i) as [Lt|Ge].
  - destruct (Nat.lt_ge_cases i' (length part)) as [Lt'|Ge'].
    + rewrite nth_error_app1 by (rewrite map_length, firstn_length; lia). rewrite nth_error_map.
      assert (E : nth_error (firstn i part) i' = nth_error part i').
      { rewrite <- (firstn_skipn i part) at 2. rewrite nth_error_app1; [reflexivity|]. rewrite firstn_length. lia. }
      rewrite E. destruct (nth_error part i') as [c|]; [|split; [reflexivity|discriminate]]. cbn [option_map].
      destruct (find_retire_all q c) as (A & B). split; [exact A|]. intros _ c1 c2 _ F. right. exact (B _ F).
    + rewrite (proj2 (nth_error_None part i') Ge').
      rewrite (proj2 (nth_error_None (map retire_all (firstn i part) ++ upd 0 (set_state ACTIVE) (skipn i part)) i')).
      * split; [reflexivity|discriminate].
      * rewrite app_length, map_length, upd_length, firstn_length, skipn_length. lia.
  - assert (E0 : nth_error part i' = nth_error (skipn i part) (i' - i)).
    { destruct (Nat.lt_ge_cases (length part) i) as [O|O].
      - rewrite skipn_all2 by lia. rewrite (proj2 (nth_error_None part i')) by lia. destruct (i' - i); reflexivity.
      - rewrite <- (firstn_skipn i part) at 1. rewrite nth_error_app2 by (rewrite firstn_length; lia). f_equal. rewrite firstn_length. lia. }
    assert (E1 : nth_error (map retire_all (firstn i part) ++ upd 0 (set_state ACTIVE) (skipn i part)) i' = nth_error (upd 0 (set_state ACTIVE) (skipn i part)) (i' - i)).
    { destruct (Nat.lt_ge_cases (length part) i) as [O|O].
      - rewrite (skipn_all2 part) by lia. cbn. rewrite (proj2 (nth_error_None _ i')) by (rewrite app_length, map_length, firstn_length; cbn; lia).
        destruct (i' - i); reflexivity.
      - rewrite nth_error_app2 by (rewrite map_length, firstn_length; lia). f_equal. rewrite map_length, firstn_length. lia. }
    rewrite E0, E1. destruct (Nat.eq_dec i' i) as [->|Ni].
    + rewrite Nat.sub_diag, nth_upd_same. destruct (nth_error (skipn i part) 0) as [c|]; [|split; [reflexivity|discriminate]]. cbn [option_map].
      destruct q as [|(k1, i1) q]; [split; [reflexivity|congruence]|]. rewrite !find_step. cbn [set_state a_parts].
      split; [reflexivity|]. intros _ c1 c2 F1 F2. left. congruence.
    + rewrite nth_upd_other by lia. split; [reflexivity|]. intros _ c1 c2 F1 F2. left. congruence.
Qed.
Lemma evolves_force : forall p t, evolves p t (force_activate p t).
Proof.
  induction p as [|(k, i) p IH]; intros t; [apply evolves_reclaim|].
  destruct p as [|e p].
  - cbn [force_activate]. destruct (find [(k, i)] t) as [c|] eqn:F; [|apply evolves_refl].
    assert (X : evolves [(k, i)] t (change [(k, i)] reclaim t)).
    { cbn [change]. apply evolves_down. intros c' _. apply evolves_reclaim. }
    destruct (a_state c); try exact X. apply evolves_skip.
  - rewrite force_nonnil by discriminate. apply evolves_down. intros c _. apply IH.
Qed.

(** Which accountants are retired by activating one. *)
Lemma force_retires_below : forall p t c, live t -> find p t = Some c -> ~ all_retired c ->
  forall r, r <> [] -> forall c', find (p ++ r) (force_activate p t) = Some c' -> a_state c' = RETIRED.
Proof.
  intros p t c L F N r NR c' F'. destruct (force_live p t c L F N) as (L' & (d & Fd & Ed)). rewrite find_app, Fd in F'.
  destruct r as [|(k, i) r]; [congruence|].
  destruct (ok_find_cases _ _ _ L' Fd) as [R|[R|(s & ->)]]; [apply retired_state in R; congruence| |discriminate].
  inversion R as [s parts FI|]; subst; [|discriminate]. cbn in F'. destruct (nth_error parts k) as [part|] eqn:E1; [|discriminate].
  destruct (nth_error part i) as [x|] eqn:E2; [|discriminate]. apply retired_state. eapply retired_find; [eapply finished_find; eassumption|exact F'].
Qed.
Lemma live_siblings p : forall t k i j c, live t -> find (p ++ [(k, i)]) t = Some c -> a_state c = ACTIVE -> j < i ->
  forall r c', find (p ++ (k, j) :: r) t = Some c' -> a_state c' = RETIRED.
Proof.
  induction p as [|(k0, i0) p IH]; intros t k i j c L F A J r c' F'.
  - cbn [app] in F. assert (N : ~ all_retired c) by (intros R; apply retired_state in R; congruence).
    destruct (live_cases _ _ _ _ _ L F N) as (s & parts & pre & x & post & -> & -> & FI & PR & LX & PO & C).
    destruct C as [(-> & F2)|(l1 & l2 & -> & -> & _)].
    + cbn in F'. rewrite nth_mid in F'. rewrite nth_error_app1 in F' by exact J. destruct (nth_error pre j) as [y|] eqn:E; [|discriminate].
      apply retired_state. eapply retired_find; [apply PR; eapply nth_error_In; exact E|exact F'].
    + exfalso. assert (untouched c) as (s0 & ->) by (apply PO; rewrite in_app_iff; right; now left). discriminate.
  - cbn [app] in F, F'. assert (N : ~ all_retired c) by (intros R; apply retired_state in R; congruence).
    destruct (live_cases _ _ _ _ _ L F N) as (s & parts & pre & x & post & -> & -> & FI & PR & LX & PO & C).
    destruct C as [(-> & F2)|(l1 & l2 & _ & _ & E)]; [|destruct p; discriminate E].
    cbn in F'. rewrite nth_mid, nth_mid in F'. eapply IH; eassumption.
Qed.
Lemma force_retires_before p t k i c : live t -> find (p ++ [(k, i)]) t = Some c -> ~ all_retired c ->
  forall j r c', j < i -> find (p ++ (k, j) :: r) (force_activate (p ++ [(k, i)]) t) = Some c' -> a_state c' = RETIRED.
Proof.
  intros L F N j r c' J F'. destruct (force_live _ t c L F N) as (L' & (d & Fd & Ed)). eapply live_siblings; eassumption.
Qed.

(** ** At most one accountant is active *)

Lemma live_active_unique : forall t p q, live t -> state_at t p ACTIVE -> state_at t q ACTIVE -> p = q.
Proof.
  intros t p. revert t. induction p as [|(k, i) p IH]; intros t q L (c & F & A) (c' & F' & A').
  - injection F as <-. destruct q as [|(k, i) q]; [reflexivity|]. exfalso.
    assert (N : ~ all_retired c') by (intros R; apply retired_state in R; congruence).
    destruct (live_cases _ _ _ _ _ L F' N) as (s & parts & pre & x & post & -> & _). discriminate.
  - assert (N : ~ all_retired c) by (intros R; apply retired_state in R; congruence).
    destruct (live_cases _ _ _ _ _ L F N) as (s & parts & pre & x & post & -> & -> & FI & PR & LX & PO & C).
    destruct q as [|(k', i') q]; [injection F' as <-; discriminate A'|].
    assert (N' : ~ all_retired c') by (intros R; apply retired_state in R; congruence).
    destruct (live_cases _ _ _ _ _ L F' N') as (s1 & parts1 & pre1 & x1 & post1 & E & -> & FI1 & PR1 & LX1 & PO1 & C1).
    injection E as <- E. apply app_inj_tail in E as (<- & E).
    destruct C as [(-> & F2)|(l1 & l2 & -> & _ & _)];
      [|exfalso; assert (untouched c) as (s0 & ->) by (apply PO; rewrite in_app_iff; right; now left); discriminate].
    destruct C1 as [(-> & F3)|(l1 & l2 & -> & _ & _)];
      [|exfalso; assert (untouched c') as (s0 & ->) by (apply PO1; rewrite in_app_iff; right; now left); discriminate].
    assert (LE : length pre = length pre1).
    { destruct (lt_eq_lt_dec (length pre) (length pre1)) as [[K|K]|K]; [exfalso|exact K|exfalso].
      - assert (X : nth_error (pre1 ++ x1 :: post1) (length pre) = Some x) by (rewrite <- E; apply nth_mid).
        rewrite nth_error_app1 in X by exact K. apply nth_error_In in X. exact (retired_not_live _ (PR1 _ X) LX).
      - assert (X : nth_error (pre ++ x :: post) (length pre1) = Some x1) by (rewrite E; apply nth_mid).
        rewrite nth_error_app1 in X by exact K. apply nth_error_In in X. exact (retired_not_live _ (PR _ X) LX1). }
    rewrite LE. f_equal. assert (x = x1).
    { assert (X : nth_error (pre1 ++ x1 :: post1) (length pre) = Some x) by (rewrite <- E; apply nth_mid). rewrite LE, nth_mid in X. congruence. }
    subst x1. eapply IH; [exact LX|exists c; auto|exists c'; auto].
Qed.
Lemma live_has_active : forall t, live t -> exists p, state_at t p ACTIVE.
Proof.
  intros t L. induction L as [s parts FI|s parts pre x post FI PR LX IH PO].
  - exists []. eexists. split; reflexivity.
  - destruct IH as (p & c & F & A). exists ((length parts, length pre) :: p). exists c. split; [|exact A].
    cbn. now rewrite nth_mid, nth_mid.
Qed.

(** *** The states of all accountants, given which one is active *)

(** Ancestors wait for their children, later parts of the same partition wait for their
    siblings, everything else is retired. *)
Fixpoint expected (p q : path) : astate :=
  match p, q with
  | [], [] => ACTIVE
  | [], _ :: _ => RETIRED
  | _ :: _, [] => WAITING_FOR_CHILDREN
  | (k, i) :: p, (k', j) :: q =>
      if k =? k' then if i =? j then expected p q else if i <? j then WAITING_FOR_SIBLING else RETIRED
      else RETIRED
  end.
Lemma live_states : forall p t, live t -> state_at t p ACTIVE -> forall q c, find q t = Some c -> a_state c = expected p q.
Proof.
  induction p as [|(k, i) p IH]; intros t L (c0 & F & A) q c Q.
  - injection F as <-. destruct q as [|(k, i) q]; [injection Q as <-; exact A|]. cbn [expected].
    inversion L as [s parts FI|]; subst; [|discriminate]. cbn in Q. destruct (nth_error parts k) as [part|] eqn:E1; [|discriminate].
    destruct (nth_error part i) as [d|] eqn:E2; [|discriminate]. apply retired_state. eapply retired_find; [eapply finished_find; eassumption|exact Q].
  - assert (N : ~ all_retired c0) by (intros R; apply retired_state in R; congruence).
    destruct (live_cases _ _ _ _ _ L F N) as (s & parts & pre & x & post & -> & -> & FI & PR & LX & PO & C).
    destruct C as [(-> & F2)|(l1 & l2 & -> & _ & _)];
      [|exfalso; assert (untouched c0) as (s0 & ->) by (apply PO; rewrite in_app_iff; right; now left); discriminate].
    destruct q as [|(k', j) q]; [injection Q as <-; reflexivity|]. cbn [expected]. cbn in Q.
    destruct (nth_error (parts ++ [pre ++ x :: post]) k') as [part|] eqn:E1; [|discriminate]. destruct (nth_error part j) as [d|] eqn:E2; [|discriminate].
    destruct (Nat.eqb_spec (length parts) k') as [<-|NK].
    + rewrite nth_mid in E1. injection E1 as <-. destruct (Nat.eqb_spec (length pre) j) as [<-|NJ].
      * rewrite nth_mid in E2. injection E2 as <-. apply (IH x LX); [exists c0; auto|exact Q].
      * destruct (Nat.ltb_spec (length pre) j) as [LT|GE].
        -- rewrite nth_error_app2 in E2 by lia. destruct (j - length pre) as [|m] eqn:J; [lia|]. cbn in E2.
           pose proof (PO d (nth_error_In _ _ E2)) as (s0 & ->). destruct q as [|(k', i') q]; [|destruct k'; discriminate Q]. injection Q as <-. reflexivity.
        -- rewrite nth_error_app1 in E2 by lia. apply retired_state. eapply retired_find; [apply PR; eapply nth_error_In; exact E2|exact Q].
    + destruct (Nat.lt_ge_cases k' (length parts)) as [LT|GE].
      * rewrite nth_error_app1 in E1 by exact LT. apply retired_state. eapply retired_find; [eapply finished_find; eassumption|exact Q].
      * exfalso. assert (nth_error (parts ++ [pre ++ x :: post]) k' = None) as X by (apply nth_error_None; rewrite app_length; cbn; lia). congruence.
Qed.

(** ** retire *)

Lemma retire_nonnil k i p (t : acct) : p <> [] ->
  retire_active ((k, i) :: p) t = Acct (a_state t) (a_data t) (upd k (upd i (retire_active p)) (a_parts t)).
Proof. destruct p; [congruence|reflexivity]. Qed.
Lemma finished_app a b : finished a -> finished b -> finished (a ++ b).
Proof. intros A B part c I J. apply in_app_iff in I as [I|I]; [eapply A|eapply B]; eassumption. Qed.
Lemma retire_live : forall p t, live t -> state_at t p ACTIVE -> p <> [] -> live (retire_active p t).
Proof.
  induction p as [|(k, i) p IH]; intros t L (c & F & A) NN; [congruence|]. clear NN.
  assert (N : ~ all_retired c) by (intros R; apply retired_state in R; congruence).
  destruct (live_cases _ _ _ _ _ L F N) as (s & parts & pre & x & post & -> & -> & FI & PR & LX & PO & C).
  destruct C as [(-> & F2)|(l1 & l2 & -> & _ & _)];
    [|exfalso; assert (untouched c) as (s0 & ->) by (apply PO; rewrite in_app_iff; right; now left); discriminate].
  destruct p as [|e p].
  - injection F2 as <-. cbn [retire_active]. unfold retire_part. cbn [a_parts a_state a_data]. rewrite nth_mid. repeat rewrite upd_mid.
    rewrite app_length. destruct post as [|y post]; cbn [length].
    + replace (Datatypes.S (length pre) <? length pre + 1) with false by (symmetry; apply Nat.ltb_ge; lia). constructor.
      apply finished_app; [exact FI|]. intros part c [<-|[]] I. apply in_app_iff in I as [I|[<-|[]]]; [auto|apply retire_all_retired].
    + replace (Datatypes.S (length pre) <? length pre + Datatypes.S (Datatypes.S (length post))) with true by (symmetry; apply Nat.ltb_lt; cbn; lia).
      replace (Datatypes.S (length pre)) with (length (pre ++ [retire_all x])) by (rewrite app_length; cbn; lia).
      replace (pre ++ retire_all x :: y :: post)%list with ((pre ++ [retire_all x]) ++ y :: post)%list by (rewrite <- app_assoc; reflexivity).
      rewrite upd_mid. constructor; auto.
      * intros c I. apply in_app_iff in I as [I|[<-|[]]]; [auto|apply retire_all_retired].
      * destruct (PO y (or_introl eq_refl)) as (s0 & ->). cbn. constructor. intros ? ? [].
      * intros c I. apply PO. now right.
  - rewrite retire_nonnil by discriminate. cbn [a_parts a_state a_data]. rewrite upd_mid, upd_mid. constructor; auto.
    apply IH; [exact LX|exists c; auto|discriminate].
Qed.
Lemma retire_ok p t : live t -> state_at t p ACTIVE -> ok (retire_active p t).
Proof.
  intros L A. destruct p as [|e p]; [right; apply retire_all_retired|]. left. apply retire_live; [exact L|exact A|discriminate].
Qed.
(** Retiring keeps payloads; what was retired stays retired. *)
Definition keeps (t t' : acct) : Prop := forall q,
  option_map a_data (find q t') = option_map a_data (find q t)
  /\ (state_at t q RETIRED -> state_at t' q RETIRED).
Lemma keeps_refl t : keeps t t. Proof. intros q. split; auto. Qed.
Lemma keeps_trans a b c : keeps a b -> keeps b c -> keeps a c.
Proof. intros A B q. destruct (A q) as (A1 & A2), (B q) as (B1 & B2). split; [congruence|auto]. Qed.
Lemma keeps_retire_all t : keeps t (retire_all t).
Proof.
  intros q. destruct (find_retire_all q t) as (A & B). split; [exact A|]. intros (c & F & _). rewrite F in A. unfold state_at.
  destruct (find q (retire_all t)) as [c'|] eqn:F'; [|discriminate]. exists c'. split; [reflexivity|exact (B _ eq_refl)].
Qed.
Lemma keeps_node st s parts parts' : st <> RETIRED ->
  (forall k i, match (match nth_error parts k with Some l => nth_error l i | None => None end),
                     (match nth_error parts' k with Some l => nth_error l i | None => None end) with
               | Some a, Some b => keeps a b | None, None => True | _, _ => False end) ->
  forall st', keeps (Acct st s parts) (Acct st' s parts').
Proof.
  intros NR H st' q. destruct q as [|(k, i) q].
  - split; [reflexivity|]. intros (c & [= <-] & E). cbn in E. congruence.
  - unfold state_at. rewrite !find_step. cbn [a_parts]. specialize (H k i).
    destruct (match nth_error parts k with Some l => nth_error l i | None => None end) as [a|],
             (match nth_error parts' k with Some l => nth_error l i | None => None end) as [b|]; try contradiction.
    + exact (H q).
    + split; [reflexivity|]. intros (c & [=] & _).
Qed.
Lemma keeps_down k i (t : acct) f st' : a_state t <> RETIRED -> (forall c, (match nth_error (a_parts t) k with Some part => nth_error part i | None => None end) = Some c -> keeps c (f c)) ->
  keeps t (Acct st' (a_data t) (upd k (upd i f) (a_parts t))).
Proof.
  intros NR H. destruct t as [st s parts]. apply keeps_node; [exact NR|]. intros k' i'. cbn [a_parts] in *.
  destruct (Nat.eq_dec k k') as [<-|Nk]; [destruct (Nat.eq_dec i i') as [<-|Ni]|].
  - rewrite nth_upd2. destruct (match nth_error parts k with Some part => nth_error part i | None => None end) as [c|]; [|exact I]. cbn. auto.
  - rewrite nth_upd2_other by congruence. destruct (match nth_error parts k with Some part => nth_error part i' | None => None end); [apply keeps_refl|exact I].
  - rewrite nth_upd2_other by congruence. destruct (match nth_error parts k' with Some part => nth_error part i' | None => None end); [apply keeps_refl|exact I].
Qed.
Lemma keeps_set_state c st' : a_state c <> RETIRED -> keeps c (set_state st' c).
Proof.
  intros NR. destruct c as [st s parts]. unfold set_state. cbn. apply keeps_node; [exact NR|]. intros k i.
  destruct (match nth_error parts k with Some l => nth_error l i | None => None end); [apply keeps_refl|exact I].
Qed.
Lemma keeps_retire : forall p t, live t -> state_at t p ACTIVE -> keeps t (retire_active p t).
Proof.
  induction p as [|(k, i) p IH]; intros t L (c & F & A); [apply keeps_retire_all|].
  assert (N : ~ all_retired c) by (intros R; apply retired_state in R; congruence).
  destruct (live_cases _ _ _ _ _ L F N) as (s & parts & pre & x & post & -> & -> & FI & PR & LX & PO & C).
  destruct C as [(-> & F2)|(l1 & l2 & -> & _ & _)];
    [|exfalso; assert (untouched c) as (s0 & ->) by (apply PO; rewrite in_app_iff; right; now left); discriminate].
  destruct p as [|e p].
  - injection F2 as <-. cbn [retire_active]. unfold retire_part. cbn [a_parts a_state a_data]. rewrite nth_mid.
    set (T := Acct WAITING_FOR_CHILDREN s (parts ++ [pre ++ x :: post])).
    assert (K1 : forall st', keeps T (Acct st' s (upd (length parts) (upd (length pre) retire_all) (parts ++ [pre ++ x :: post])))).
    { intros st'. apply (keeps_down (length parts) (length pre) T retire_all st'); [discriminate|]. intros c _. apply keeps_retire_all. }
    rewrite app_length. destruct post as [|y post]; cbn [length].
    + replace (Datatypes.S (length pre) <? length pre + 1) with false by (symmetry; apply Nat.ltb_ge; lia). apply K1.
    + replace (Datatypes.S (length pre) <? length pre + Datatypes.S (Datatypes.S (length post))) with true by (symmetry; apply Nat.ltb_lt; cbn; lia).
      eapply keeps_trans; [apply (K1 WAITING_FOR_CHILDREN)|].
      match goal with |- keeps ?a _ => apply (keeps_down (length parts) (Datatypes.S (length pre)) a) end; [discriminate|].
      cbn [a_parts]. rewrite upd_mid, upd_mid, nth_mid. intros c.
      replace (pre ++ retire_all x :: y :: post)%list with ((pre ++ [retire_all x]) ++ y :: post)%list by (rewrite <- app_assoc; reflexivity).
      replace (Datatypes.S (length pre)) with (length (pre ++ [retire_all x])) by (rewrite app_length; cbn; lia). rewrite nth_mid. intros [= <-].
      apply keeps_set_state. destruct (PO y (or_introl eq_refl)) as (s0 & ->). discriminate.
  - rewrite retire_nonnil by discriminate. cbn [a_parts a_state a_data].
    set (T := Acct WAITING_FOR_CHILDREN s (parts ++ [pre ++ x :: post])).
    apply (keeps_down (length parts) (length pre) T); [discriminate|]. cbn [T a_parts]. rewrite nth_mid, nth_mid. intros c' [= <-].
    apply IH; [exact LX|exists c; auto].
Qed.
Lemma evolves_keeps p t t' : evolves p t t' -> ~ state_at t p RETIRED -> keeps t t'.
Proof.
  intros E N q. destruct (E q) as (A & B). split; [exact A|]. intros (c & F & R). rewrite F in A.
  destruct (find q t') as [c'|] eqn:F'; [|discriminate]. exists c'. split; [exact F'|].
  destruct (list_eq_dec (fun a b : nat * nat => ltac:(decide equality; apply Nat.eq_dec)) q p) as [->|D].
  - exfalso. apply N. exists c. auto.
  - destruct (B D c c' F eq_refl) as [X|X]; congruence.
Qed.

(** ** Using the active accountant *)

Lemma change_live : forall p f t, live t -> state_at t p ACTIVE ->
  (forall c, live c -> a_state c = ACTIVE -> live (f c)) -> live (change p f t).
Proof.
  induction p as [|(k, i) p IH]; intros f t L (c & F & A) H; [injection F as <-; cbn; auto|].
  assert (N : ~ all_retired c) by (intros R; apply retired_state in R; congruence).
  destruct (live_cases _ _ _ _ _ L F N) as (s & parts & pre & x & post & -> & -> & FI & PR & LX & PO & C).
  destruct C as [(-> & F2)|(l1 & l2 & -> & _ & _)];
    [|exfalso; assert (untouched c) as (s0 & ->) by (apply PO; rewrite in_app_iff; right; now left); discriminate].
  cbn [change a_state a_data a_parts]. rewrite upd_mid, upd_mid. constructor; auto.
  apply IH; [exact LX|exists c; auto|exact H].
Qed.
Lemma set_data_live s c : live c -> a_state c = ACTIVE -> live (set_data s c).
Proof. intros L A. inversion L; subst; [|discriminate]. cbn. now constructor. Qed.
Lemma split_live s l c : l <> [] -> live c -> a_state c = ACTIVE -> live (split_at s l c).
Proof.
  intros N L A. inversion L as [s0 parts F|]; subst; [|discriminate]. destruct l as [|x l]; [congruence|].
  unfold split_at, new_parts. cbn [a_parts].
  change (Acct ACTIVE x [] :: map (fun s => Acct WAITING_FOR_SIBLING s []) l)%list
    with ([] ++ Acct ACTIVE x [] :: map (fun s => Acct WAITING_FOR_SIBLING s []) l)%list.
  constructor; [exact F|intros ? []|constructor; intros ? ? []|].
  intros c I. apply in_map_iff in I as (y & <- & _). exists y. reflexivity.
Qed.
Lemma live_child t k i : live t -> forall c, find [(k, i)] t = Some c -> ok c \/ untouched c.
Proof.
  intros L c F. destruct (ok_find_cases _ _ _ L F) as [R|[R|R]]; [left; now right|left; now left|now right].
Qed.
(** A change at one place keeps what is retired elsewhere. *)
Lemma keeps_change p f t : state_at t p ACTIVE -> (forall c q, find p t = Some c -> state_at c q RETIRED -> state_at (f c) q RETIRED) ->
  forall q, state_at t q RETIRED -> state_at (change p f t) q RETIRED.
Proof.
  revert t. induction p as [|(k, i) p IH]; intros t A H q Q; [cbn; eapply H; [reflexivity|exact Q]|].
  destruct A as (c & F & A). rewrite find_step in F. destruct q as [|(k', i') q].
  - destruct Q as (c' & [= <-] & E). exists (change ((k, i) :: p) f t). split; [reflexivity|exact E].
  - destruct Q as (c' & F' & E). unfold state_at. rewrite find_step. cbn [change a_parts].
    destruct (Nat.eq_dec k k') as [<-|Nk]; [destruct (Nat.eq_dec i i') as [<-|Ni]|].
    + rewrite nth_upd2. rewrite find_step in F'. destruct (match nth_error (a_parts t) k with Some part => nth_error part i | None => None end) as [d|] eqn:D; [|discriminate].
      cbn [option_map]. apply IH; [exists c; auto| |exists c'; auto]. intros c0 q0 F0. apply H. rewrite find_step, D. exact F0.
    + rewrite nth_upd2_other by congruence. rewrite <- find_step. exists c'. auto.
    + rewrite nth_upd2_other by congruence. rewrite <- find_step. exists c'. auto.
Qed.

(** ** Payloads *)

(** The payloads of a tree of accountants, without the states. *)
Inductive dtree : Type := DNode (s : S) (parts : list (list dtree)).
Fixpoint payload (t : acct) : dtree := let 'Acct _ s parts := t in DNode s (map (map payload) parts).
Definition d_data (d : dtree) : S := let 'DNode s _ := d in s.
Definition d_parts (d : dtree) : list (list dtree) := let 'DNode _ l := d in l.
Fixpoint dfind (p : path) (d : dtree) : option dtree :=
  match p with
  | [] => Some d
  | (k, i) :: p => match nth_error (d_parts d) k with
                   | None => None
                   | Some part => match nth_error part i with None => None | Some c => dfind p c end
                   end
  end.
Fixpoint dchange (p : path) (f : dtree -> dtree) (d : dtree) : dtree :=
  match p with
  | [] => f d
  | (k, i) :: p => DNode (d_data d) (upd k (upd i (dchange p f)) (d_parts d))
  end.
Lemma payload_eta t : payload t = DNode (a_data t) (map (map payload) (a_parts t)).
Proof. destruct t; reflexivity. Qed.
Lemma dfind_payload p : forall t, dfind p (payload t) = option_map payload (find p t).
Proof.
  induction p as [|(k, i) p IH]; intros [st s parts]; [reflexivity|]. cbn. rewrite nth_error_map.
  destruct (nth_error parts k) as [part|]; [|reflexivity]. cbn. rewrite nth_error_map. destruct (nth_error part i) as [c|]; [|reflexivity].
  cbn. apply IH.
Qed.
Lemma payload_find t t' p c : payload t = payload t' -> find p t = Some c -> exists c', find p t' = Some c' /\ payload c' = payload c.
Proof.
  intros E F. pose proof (dfind_payload p t) as A. pose proof (dfind_payload p t') as B. rewrite F in A. rewrite E, B in A.
  destruct (find p t') as [c'|]; [|discriminate]. exists c'. injection A as A. auto.
Qed.
Lemma payload_retire_all : forall t, payload (retire_all t) = payload t.
Proof.
  apply acct_ind'. intros st s parts IH. cbn. f_equal. rewrite map_map. apply map_ext_in. intros part I. rewrite map_map.
  apply map_ext_in. intros c J. eauto.
Qed.
Lemma map_upd {A B} (g : A -> B) f f' l i : (forall x, nth_error l i = Some x -> g (f x) = f' (g x)) -> map g (upd i f l) = upd i f' (map g l).
Proof.
  revert i. induction l as [|x l IH]; intros [|i] H; cbn; [reflexivity|reflexivity| |].
  - rewrite H; [reflexivity|reflexivity].
  - rewrite IH; [reflexivity|]. intros y Y. apply H. exact Y.
Qed.
Lemma upd_id {A} (f : A -> A) l i : (forall x, nth_error l i = Some x -> f x = x) -> upd i f l = l.
Proof.
  revert i. induction l as [|x l IH]; intros [|i] H; cbn; [reflexivity|reflexivity| |].
  - rewrite H; [reflexivity|reflexivity].
  - rewrite IH; [reflexivity|]. intros y Y. apply H. exact Y.
Qed.
Lemma payload_upd k i f parts : (forall c, payload (f c) = payload c) ->
  map (map payload) (upd k (upd i f) parts) = map (map payload) parts.
Proof.
  intros H. rewrite (map_upd (map payload) (upd i f) (fun l => l)); [apply upd_id; reflexivity|].
  intros part _. rewrite (map_upd payload f (fun c => c)); [apply upd_id; reflexivity|]. intros c _. apply H.
Qed.
Lemma payload_reclaim t : payload (reclaim t) = payload t.
Proof.
  destruct t as [st s parts]. cbn. f_equal. rewrite map_map. apply map_ext. intros part. rewrite map_map. apply map_ext. apply payload_retire_all.
Qed.
Lemma payload_set_state st t : payload (set_state st t) = payload t.
Proof. destruct t; reflexivity. Qed.
Lemma payload_skip i part : map payload (skip_to i part) = map payload part.
Proof.
  unfold skip_to. rewrite map_app, map_map. rewrite (map_ext _ _ (fun c => payload_retire_all c)).
  rewrite (map_upd payload (set_state ACTIVE) (fun c => c)) by (intros c _; apply payload_set_state).
  rewrite (upd_id (fun c : dtree => c)) by reflexivity. rewrite <- map_app, firstn_skipn. reflexivity.
Qed.
Lemma payload_force : forall p t, payload (force_activate p t) = payload t.
Proof.
  induction p as [|(k, i) p IH]; intros t; [apply payload_reclaim|]. destruct p as [|e p].
  - cbn [force_activate]. destruct (find [(k, i)] t) as [c|]; [|reflexivity].
    assert (X : payload (change [(k, i)] reclaim t) = payload t).
    { rewrite (payload_eta t). cbn [change payload a_parts a_data]. rewrite payload_upd; [reflexivity|]. apply payload_reclaim. }
    destruct (a_state c); try exact X. rewrite (payload_eta t). cbn [payload]. f_equal.
    rewrite (map_upd (map payload) (skip_to i) (fun l => l)); [apply upd_id; reflexivity|]. intros part _. apply payload_skip.
  - rewrite force_nonnil by discriminate. rewrite (payload_eta t). cbn [payload]. f_equal. apply payload_upd. apply IH.
Qed.
Lemma payload_retire : forall p t, payload (retire_active p t) = payload t.
Proof.
  induction p as [|(k, i) p IH]; intros t; [apply payload_retire_all|]. destruct p as [|e p].
  - cbn [retire_active]. unfold retire_part. destruct (nth_error (a_parts t) k) as [part|]; [|reflexivity].
    destruct (_ <? _); rewrite (payload_eta t); cbn [payload]; f_equal.
    + rewrite payload_upd by apply payload_set_state. apply payload_upd, payload_retire_all.
    + apply payload_upd, payload_retire_all.
  - rewrite retire_nonnil by discriminate. rewrite (payload_eta t). cbn [payload]. f_equal. apply payload_upd, IH.
Qed.
Lemma payload_change f g : (forall c, payload (f c) = g (payload c)) -> forall p t, payload (change p f t) = dchange p g (payload t).
Proof.
  intros H. induction p as [|(k, i) p IH]; intros t; [apply H|]. rewrite (payload_eta t). cbn [change payload dchange d_data d_parts]. f_equal.
  apply map_upd. intros part _. apply map_upd. intros c _. apply IH.
Qed.
Definition d_set (s : S) (d : dtree) : dtree := DNode s (d_parts d).
Definition d_split (s : S) (l : list S) (d : dtree) : dtree := DNode s (d_parts d ++ [map (fun s => DNode s []) l]).
Lemma payload_set_data s t : payload (set_data s t) = d_set s (payload t).
Proof. destruct t; reflexivity. Qed.
Lemma payload_split s l t : payload (split_at s l t) = d_split s l (payload t).
Proof.
  destruct t as [st s0 parts]. unfold split_at, d_split. cbn. f_equal. rewrite map_app. f_equal. cbn. f_equal.
  destruct l as [|x l]; [reflexivity|]. cbn. f_equal. rewrite map_map. reflexivity.
Qed.
Lemma dfind_dchange f : forall p d, dfind p (dchange p f d) = option_map f (dfind p d).
Proof.
  induction p as [|(k, i) p IH]; intros [s parts]; [reflexivity|]. cbn. rewrite nth_upd_same. destruct (nth_error parts k) as [part|]; [|reflexivity].
  cbn. rewrite nth_upd_same. destruct (nth_error part i) as [c|]; [|reflexivity]. cbn. apply IH.
Qed.
Lemma dfind_dchange_other f p : forall q d, (forall r, q <> (p ++ r)%list) ->
  option_map d_data (dfind q (dchange p f d)) = option_map d_data (dfind q d).
Proof.
  induction p as [|(k, i) p IH]; intros q [s parts] N; [exfalso; apply (N q); reflexivity|].
  destruct q as [|(k', i') q]; [reflexivity|]. cbn.
  destruct (Nat.eq_dec k k') as [<-|Nk]; [|rewrite nth_upd_other by exact Nk; reflexivity].
  rewrite nth_upd_same. destruct (nth_error parts k) as [part|]; [|reflexivity]. cbn.
  destruct (Nat.eq_dec i i') as [<-|Ni]; [|rewrite nth_upd_other by exact Ni; reflexivity].
  rewrite nth_upd_same. destruct (nth_error part i) as [c|]; [|reflexivity]. cbn. apply IH. intros r E. apply (N r). cbn. now rewrite E.
Qed.
Lemma dfind_app p : forall q d, dfind (p ++ q) d = match dfind p d with Some c => dfind q c | None => None end.
Proof.
  induction p as [|(k, i) p IH]; intros q d; [reflexivity|]. cbn. destruct (nth_error (d_parts d) k) as [part|]; [|reflexivity].
  destruct (nth_error part i) as [c|]; [apply IH|reflexivity].
Qed.

(** ** Stopping *)
Lemma retire_payload rw p t : payload (fst (retire rw p t)) = payload t.
Proof.
  unfold retire. destruct (option_map a_state (find p t)) as [[| | |]|]; try reflexivity; cbn [fst].
  - apply payload_retire.
  - destruct rw; [|reflexivity]. cbn [fst]. now rewrite payload_retire, payload_force.
  - destruct rw; [|reflexivity]. cbn [fst]. now rewrite payload_retire, payload_force.
Qed.
Lemma ok_usable_live t p c : ok t -> find p t = Some c -> a_state c <> RETIRED -> live t /\ ~ all_retired c.
Proof.
  intros [L|R] F N; [|exfalso; apply N, retired_state; eapply retired_find; eassumption].
  split; [exact L|]. intros R. apply N, retired_state, R.
Qed.
Lemma retire_keeps rw p t : ok t -> ok (fst (retire rw p t)) /\ keeps t (fst (retire rw p t)).
Proof.
  intros O. unfold retire. destruct (find p t) as [c|] eqn:F; cbn [option_map fst]; [|split; [exact O|apply keeps_refl]].
  assert (W : a_state c <> RETIRED -> ok (retire_active p (force_activate p t)) /\ keeps t (retire_active p (force_activate p t))).
  { intros N. destruct (ok_usable_live _ _ _ O F N) as (L & NR). destruct (force_live p t c L F NR) as (L' & A).
    split; [apply retire_ok; assumption|]. eapply keeps_trans; [|apply keeps_retire; assumption].
    apply (evolves_keeps p); [apply evolves_force|]. intros (c' & F' & E). congruence. }
  destruct (a_state c) eqn:EC; cbn [fst].
  - destruct (ok_usable_live _ _ _ O F ltac:(congruence)) as (L & NR). split; [apply retire_ok; [exact L|exists c; auto]|].
    apply keeps_retire; [exact L|exists c; auto].
  - split; [exact O|apply keeps_refl].
  - destruct rw; [apply W; discriminate|split; [exact O|apply keeps_refl]].
  - destruct rw; [apply W; discriminate|split; [exact O|apply keeps_refl]].
Qed.
Lemma force_keeps p t c : ok t -> find p t = Some c -> a_state c <> RETIRED ->
  live (force_activate p t) /\ state_at (force_activate p t) p ACTIVE /\ keeps t (force_activate p t).
Proof.
  intros O F N. destruct (ok_usable_live _ _ _ O F N) as (L & NR). destruct (force_live p t c L F NR) as (L' & A).
  split; [exact L'|]. split; [exact A|]. apply (evolves_keeps p); [apply evolves_force|]. intros (c' & F' & E). congruence.
Qed.
End Proofs.
Arguments dtree S : clear implicits.
