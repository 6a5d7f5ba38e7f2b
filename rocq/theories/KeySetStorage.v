(** Proofs for C61: what Spark stores, and answers that are remembered. *)
From Coq Require Import String Bool Arith ZArith Lia List.
From Verif Require Import Prelude Value KeySet KeySetObject KeySetObjectSpec KeySetObjectProofs.
Import ListNotations.

Lemma stored_app b a e1 e2 : stored_from b a (e1 ++ e2) = stored_from (stored_from b a e1) a e2.
Proof.
  revert b; induction e1 as [|[i|i] r IH]; intros b; cbn [app stored_from]; auto.
Qed.
Lemma wants_app b a t1 t2 : wants_from b a (t1 ++ t2) = wants_from (wants_from b a t1) a t2.
Proof.
  revert b; induction t1 as [|[c [v|e]] r IH]; intros b; cbn [app]; auto;
    destruct c; cbn [wants_from]; auto.
Qed.

Definition is_some {A} (x : option A) : bool := match x with Some _ => true | None => false end.

(** No dataframe is given to storage that is already there. *)
Definition clean (es : list event) : Prop :=
  forall before a after, es = before ++ Persist a :: after -> stored a before = false.

Lemma clean_snoc es e : clean es -> (forall a, e = Persist a -> stored a es = false) -> clean (es ++ [e]).
Proof.
  intros C H before a after E.
  destruct (exists_last (l := Persist a :: after)) as (l' & x & L); [discriminate|].
  rewrite L, app_assoc in E. apply app_inj_tail in E as [E <-].
  destruct l' as [|y l''].
  - injection L as <- ->. rewrite app_nil_r in E. subst. auto.
  - cbn [app] in L. injection L as <- ->. apply (C before a l''). auto.
Qed.

Section Storage.
Variable W : world.

(** [w]: who asked for caching; [d], [z]: which frames and sizes have been shown. *)
Definition fits (w : bool) (d : frame -> Prop) (z : Z -> Prop) (st : bool) (o : option object) : Prop :=
  match o with
  | Some o => st = o_cached o && is_some (o_frame o) /\ w = o_cached o
      /\ (forall f, d f -> o_frame o = Some f) /\ (forall n, z n -> o_size o = Some n)
  | None => st = false /\ w = false /\ (forall f, ~ d f) /\ (forall n, ~ z n)
  end.
Record inv (w : nat -> bool) (d : nat -> frame -> Prop) (z : nat -> Z -> Prop) (h : heap) : Prop := {
  inv_fits : forall a, fits (w a) (d a) (z a) (stored a (spark h)) (nth_error (objects h) a);
  inv_clean : clean (spark h)
}.

Lemma find_nth {A} (l : list A) a x : find l a = Ok x -> nth_error l a = Some x.
Proof. unfold find. destruct (nth_error l a); intros H; [injection H as ->|discriminate]; auto. Qed.

(** Assigning to object [a]; [es] is at most one event about [a]. *)
Lemma update_inv w w' d d' z z' h a o o' es :
  inv w d z h -> find (objects h) a = Ok o ->
  (es = [] \/ (es = [Persist a] /\ stored a (spark h) = false) \/ es = [Unpersist a]) ->
  fits (w' a) (d' a) (z' a) (stored_from (stored a (spark h)) a es) (Some o') ->
  (forall b, b <> a -> w' b = w b /\ (forall f, d' b f -> d b f) /\ forall n, z' b n -> z b n) ->
  inv w' d' z' (update h a o' es).
Proof.
  intros [F C] Fo Es St Ot. apply find_nth in Fo. constructor; cbn [update objects spark].
  - intros b. unfold stored. rewrite stored_app. destruct (Nat.eq_dec b a) as [->|N].
    + rewrite nth_error_put_same by (apply nth_error_Some; congruence). exact St.
    + rewrite nth_error_put_other by auto. destruct (Ot b N) as (-> & D & Z).
      specialize (F b).
      assert (Q : stored_from (stored_from false b (spark h)) b es = stored b (spark h)).
      { destruct Es as [->|[[-> _]| ->]]; cbn [stored_from]; auto;
          (destruct (Nat.eqb_spec a b); [congruence|reflexivity]). }
      rewrite Q. unfold fits in *. destruct (nth_error (objects h) b); intuition; eauto.
  - destruct Es as [->|[[-> S]| ->]].
    + rewrite app_nil_r. auto.
    + apply clean_snoc; auto. intros b [= <-]. auto.
    + apply clean_snoc; auto. discriminate.
Qed.

Lemma fits_of w d z h a o : inv w d z h -> find (objects h) a = Ok o ->
  fits (w a) (d a) (z a) (stored a (spark h)) (Some o).
Proof. intros [F _] E. apply find_nth in E. specialize (F a). rewrite E in F. exact F. Qed.

Lemma dataframe_inv w d z h a : inv w d z h ->
  inv w d z (fst (dataframe_of W h a))
  /\ forall f, snd (dataframe_of W h a) = Ok f ->
       exists o, find (objects (fst (dataframe_of W h a))) a = Ok o /\ o_frame o = Some f.
Proof.
  intros I. unfold dataframe_of.
  destruct (find (objects h) a) as [o|e] eqn:Fo; [|split; [exact I|discriminate]].
  destruct (ks_plan (view h o)); [split; [exact I|discriminate]|].
  destruct (o_frame o) as [f|] eqn:Ef.
  { split; [exact I|]. intros f' [= <-]. exists o. auto. }
  destruct (ks_dataframe W (view h o)) as [f|e]; [|split; [exact I|discriminate]].
  cbn [fst snd]. pose proof (fits_of _ _ _ _ _ _ I Fo) as St. cbn [fits] in St.
  destruct St as (St & Sw & Sd & Sz). rewrite Ef in St. cbn [is_some] in St. rewrite andb_false_r in St.
  split.
  - eapply update_inv; eauto.
    + destruct (o_cached o); auto.
    + rewrite St. destruct (o_cached o) eqn:Ec; cbn [fits o_cached o_frame o_size is_some andb stored_from];
        rewrite ?Nat.eqb_refl; (split; [reflexivity|split; [exact Sw|split; [|exact Sz]]]);
        intros f' H; apply Sd in H; congruence.
  - intros f' [= <-]. unfold find. cbn [update objects].
    rewrite nth_error_put_same; [eexists; split; reflexivity|].
    apply find_nth in Fo. apply nth_error_Some. congruence.
Qed.

Lemma size_inv w d z h a : inv w d z h ->
  inv w d z (fst (size_of W h a))
  /\ forall n, snd (size_of W h a) = Ok n ->
       exists o, find (objects (fst (size_of W h a))) a = Ok o /\ o_size o = Some n.
Proof.
  intros I. unfold size_of.
  destruct (find (objects h) a) as [o|e] eqn:Fo; [|split; [exact I|discriminate]].
  destruct (ks_plan (view h o)); [split; [exact I|discriminate]|].
  destruct (o_size o) as [f|] eqn:Ef.
  { split; [exact I|]. intros f' [= <-]. exists o. auto. }
  destruct (ks_size W (view h o)) as [f|e]; [|split; [exact I|discriminate]].
  cbn [fst snd]. pose proof (fits_of _ _ _ _ _ _ I Fo) as St. cbn [fits] in St.
  destruct St as (St & Sw & Sd & Sz).
  split.
  - eapply update_inv; eauto.
    cbn [fits o_cached o_frame o_size stored_from]. intuition. apply Sz in H. congruence.
  - intros f' [= <-]. unfold find. cbn [update objects].
    rewrite nth_error_put_same; [eexists; split; reflexivity|].
    apply find_nth in Fo. apply nth_error_Some. congruence.
Qed.

Lemma equal_inv w d z h a b : inv w d z h -> inv w d z (fst (equal W h a b)).
Proof.
  intros I. unfold equal. destruct (look h a) as [ka|]; [|exact I]. destruct (look h b) as [kb|]; [|exact I].
  destruct (negb (Bool.eqb (ks_plan ka) (ks_plan kb))); [exact I|].
  destruct (ks_is_equivalent ka kb) as [[v|]|]; [exact I| |exact I].
  destruct (ks_plan ka); [exact I|].
  pose proof (dataframe_inv _ _ _ _ a I) as [I1 _]. destruct (dataframe_of W h a) as [h1 ra]. cbn [fst] in I1.
  destruct (let* fa := ra in select_columns (ks_cols ka) fa); [|exact I1].
  pose proof (dataframe_inv _ _ _ _ b I1) as [I2 _]. destruct (dataframe_of W h1 b) as [h2 rb]. cbn [fst] in I2.
  destruct (let* fb := rb in select_columns (ks_cols ka) fb); exact I2.
Qed.

Lemma add_inv w d z h k c : inv w d z h -> inv w d z (add h (fresh k c)).
Proof.
  intros [F C]. constructor; cbn [add objects spark]; auto. intros a. specialize (F a).
  destruct (Nat.lt_ge_cases a (length (objects h))) as [L|L].
  - rewrite nth_error_app1 by auto. exact F.
  - pose proof L as L'. apply nth_error_None in L'. rewrite L' in F. rewrite nth_error_app2 by auto.
    destruct F as (S & Wa & D & Z).
    destruct (a - length (objects h)) as [|m]; cbn [nth_error fits fresh o_cached o_frame o_size andb].
    + split; [exact S|split; [exact Wa|split]]; [intros f H; destruct (D f H)|intros n H; destruct (Z n H)].
    + destruct m; cbn [nth_error fits]; auto.
Qed.

Lemma keep_inv w d z h r c : inv w d z h -> inv w d z (fst (keep h r c)).
Proof. intros I. destruct r; cbn [keep fst]; auto. apply add_inv; auto. Qed.

(** What a history has asked and shown. *)
Definition asked (t : list (call * res answer)) (a : nat) : bool := wants a t.
Definition shown (t : list (call * res answer)) (a : nat) (f : frame) : Prop :=
  In (DataframeCall a, Ok (AFrame f)) t.
Definition sized (t : list (call * res answer)) (a : nat) (n : Z) : Prop :=
  In (SizeCall a, Ok (ASize n)) t.

Lemma inv_weaken w w' (d d' : nat -> frame -> Prop) (z z' : nat -> Z -> Prop) h : inv w d z h -> (forall a, w' a = w a) ->
  (forall a f, d' a f -> d a f) -> (forall a n, z' a n -> z a n) -> inv w' d' z' h.
Proof.
  intros [F C] A B D. constructor; auto. intros a. specialize (F a). rewrite (A a).
  unfold fits in *. destruct (nth_error (objects h) a); intuition; eauto.
Qed.

Lemma asked_snoc t c r a : asked (t ++ [(c, r)]) a = wants_from (asked t a) a [(c, r)].
Proof. unfold asked, wants. apply wants_app. Qed.

Lemma shown_snoc t c r a f : shown (t ++ [(c, r)]) a f ->
  shown t a f \/ (c = DataframeCall a /\ r = Ok (AFrame f)).
Proof. unfold shown. rewrite in_app_iff. intros [I|[I|[]]]; [auto|]. injection I as -> ->. auto. Qed.
Lemma sized_snoc t c r a n : sized (t ++ [(c, r)]) a n ->
  sized t a n \/ (c = SizeCall a /\ r = Ok (ASize n)).
Proof. unfold sized. rewrite in_app_iff. intros [I|[I|[]]]; [auto|]. injection I as -> ->. auto. Qed.

Definition tells (h : heap) (t : list (call * res answer)) : Prop := inv (asked t) (shown t) (sized t) h.

(** Calls that do not bear on the invariant. *)
Lemma tells_plain h t c r : tells h t ->
  (forall a, c <> CacheCall a /\ c <> UncacheCall a /\ c <> DataframeCall a /\ c <> SizeCall a) ->
  tells h (t ++ [(c, r)]).
Proof.
  intros T N. eapply inv_weaken; [exact T| | |].
  - intros a. rewrite asked_snoc.
    destruct c, r; try reflexivity; specialize (N a0); destruct N as (A & B & _); congruence.
  - intros a f H. apply shown_snoc in H as [H|[-> _]]; auto. destruct (N a) as (_ & _ & A & _). congruence.
  - intros a n H. apply sized_snoc in H as [H|[-> _]]; auto. destruct (N a) as (_ & _ & _ & A). congruence.
Qed.

(** A failed call. *)
Lemma tells_failed h t c e : tells h t -> tells h (t ++ [(c, Err e)]).
Proof.
  intros T. eapply inv_weaken; [exact T| | |].
  - intros a. rewrite asked_snoc. destruct c; reflexivity.
  - intros a f H. apply shown_snoc in H as [H|[_ ?]]; auto. discriminate.
  - intros a n H. apply sized_snoc in H as [H|[_ ?]]; auto. discriminate.
Qed.

Ltac plain := apply tells_plain; [|intros ?; repeat split; discriminate].

Lemma step_tells h t c : tells h t ->
  tells (fst (step W h c)) (t ++ [(c, snd (step W h c))]).
Proof.
  intros T. destruct c; cbn [step]; try (plain; try apply keep_inv; exact T).
  - (* NewList *) plain. destruct T as [F C]. constructor; auto.
  - (* SetList *) plain. destruct (l <? length (lists h)); [|exact T].
    destruct T as [F C]. constructor; auto.
  - (* dataframe *)
    pose proof (dataframe_inv _ _ _ _ a T) as [I R]. destruct (dataframe_of W h a) as [h1 r].
    cbn [fst snd] in *. unfold reply. destruct r as [f|e]; cbn [fst snd]; [|apply tells_failed; exact I].
    destruct (R f eq_refl) as (o & Fo & Ef). constructor; [|apply I].
    intros b. pose proof (inv_fits _ _ _ _ I b) as Fb. rewrite asked_snoc. cbn [wants_from].
    unfold fits in *. destruct (nth_error (objects h1) b) as [o'|] eqn:Nb.
    + destruct Fb as (A & B & D & Z). repeat split; auto.
      * intros f' H. apply shown_snoc in H as [H|[H1 H2]]; auto. injection H1 as ->. injection H2 as ->.
        apply find_nth in Fo. congruence.
      * intros n H. apply sized_snoc in H as [H|[H1 _]]; auto. discriminate.
    + destruct Fb as (A & B & D & Z). repeat split; auto.
      * intros f' H. apply shown_snoc in H as [H|[H1 H2]]; [apply (D f'); auto|]. injection H1 as ->.
        apply find_nth in Fo. congruence.
      * intros n H. apply sized_snoc in H as [H|[H1 _]]; [apply (Z n); auto|]. discriminate.
  - (* size *)
    pose proof (size_inv _ _ _ _ a T) as [I R]. destruct (size_of W h a) as [h1 r].
    cbn [fst snd] in *. unfold reply. destruct r as [f|e]; cbn [fst snd]; [|apply tells_failed; exact I].
    destruct (R f eq_refl) as (o & Fo & Ef). constructor; [|apply I].
    intros b. pose proof (inv_fits _ _ _ _ I b) as Fb. rewrite asked_snoc. cbn [wants_from].
    unfold fits in *. destruct (nth_error (objects h1) b) as [o'|] eqn:Nb.
    + destruct Fb as (A & B & D & Z). repeat split; auto.
      * intros n H. apply shown_snoc in H as [H|[H1 _]]; auto. discriminate.
      * intros f' H. apply sized_snoc in H as [H|[H1 H2]]; auto. injection H1 as ->. injection H2 as ->.
        apply find_nth in Fo. congruence.
    + destruct Fb as (A & B & D & Z). repeat split; auto.
      * intros n H. apply shown_snoc in H as [H|[H1 _]]; [apply (D n); auto|]. discriminate.
      * intros f' H. apply sized_snoc in H as [H|[H1 H2]]; [apply (Z f'); auto|]. injection H1 as ->.
        apply find_nth in Fo. congruence.
  - (* cache *)
    unfold cache. destruct (find (objects h) a) as [o|e] eqn:Fo; [|apply tells_failed; exact T].
    destruct (ks_plan (view h o)); [apply tells_failed; exact T|].
    pose proof (fits_of _ _ _ _ _ _ T Fo) as (St & Sw & Sd & Sz).
    destruct (o_cached o) eqn:Ec; cbn [fst snd].
    + eapply inv_weaken; [exact T| | |].
      * intros b. rewrite asked_snoc. cbn [wants_from]. destruct (Nat.eqb_spec a b) as [<-|]; auto.
      * intros b f H. apply shown_snoc in H as [H|[? _]]; auto. discriminate.
      * intros b f H. apply sized_snoc in H as [H|[? _]]; auto. discriminate.
    + cbn [andb] in St. eapply update_inv; [exact T|exact Fo| | |].
      * destruct (o_frame o); auto.
      * rewrite asked_snoc. cbn [wants_from fits o_cached o_frame o_size]. rewrite Nat.eqb_refl.
        rewrite St. repeat split.
        -- destruct (o_frame o); cbn [stored_from is_some andb]; rewrite ?Nat.eqb_refl; reflexivity.
        -- intros f H. apply shown_snoc in H as [H|[? _]]; auto. discriminate.
        -- intros f H. apply sized_snoc in H as [H|[? _]]; auto. discriminate.
      * intros b N. repeat split.
        -- rewrite asked_snoc. cbn [wants_from]. destruct (Nat.eqb_spec a b); congruence.
        -- intros f H. apply shown_snoc in H as [H|[? _]]; auto. discriminate.
        -- intros f H. apply sized_snoc in H as [H|[? _]]; auto. discriminate.
  - (* uncache *)
    unfold uncache. destruct (find (objects h) a) as [o|e] eqn:Fo; [|apply tells_failed; exact T].
    destruct (ks_plan (view h o)); [apply tells_failed; exact T|].
    pose proof (fits_of _ _ _ _ _ _ T Fo) as (St & Sw & Sd & Sz). cbn [fst snd].
    eapply update_inv; [exact T|exact Fo| | |].
    + destruct (o_frame o); auto.
    + rewrite asked_snoc. cbn [wants_from fits o_cached o_frame o_size]. rewrite Nat.eqb_refl.
      repeat split.
      * rewrite St. destruct (o_frame o); cbn [stored_from is_some andb]; rewrite ?Nat.eqb_refl; auto.
        apply andb_false_r.
      * intros f H. apply shown_snoc in H as [H|[? _]]; auto. discriminate.
      * intros f H. apply sized_snoc in H as [H|[? _]]; auto. discriminate.
    + intros b N. repeat split.
      * rewrite asked_snoc. cbn [wants_from]. destruct (Nat.eqb_spec a b); congruence.
      * intros f H. apply shown_snoc in H as [H|[? _]]; auto. discriminate.
      * intros f H. apply sized_snoc in H as [H|[? _]]; auto. discriminate.
  - (* equal *) plain. apply equal_inv. exact T.
Qed.

Lemma run_tells h t cs : tells h t -> tells (fst (run W h cs)) (t ++ snd (run W h cs)).
Proof.
  revert h t; induction cs as [|c r IH]; intros h t T; cbn [run].
  - cbn [fst snd]. rewrite app_nil_r. exact T.
  - pose proof (step_tells h t c T) as T1. destruct (step W h c) as [h1 a]. cbn [fst snd] in T1.
    specialize (IH h1 _ T1). destruct (run W h1 r) as [h2 t2]. cbn [fst snd] in *.
    rewrite <- app_assoc in IH. exact IH.
Qed.

Lemma empty_tells : tells empty [].
Proof.
  constructor.
  - intros a. cbn. destruct a; cbn; repeat split; intros ? [].
  - intros before a after E. destruct before; discriminate.
Qed.
End Storage.
