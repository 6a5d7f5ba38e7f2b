(** Proofs for C61. *)
From Coq Require Import String Bool Arith ZArith Lia List.
From Verif Require Import Prelude Value KeySet KeySetObject KeySetObjectSpec.
From Verif Require KeySetApi.
Import ListNotations.

(** ** Lists *)
Lemma put_length {A} i (x : A) l : length (put i x l) = length l.
Proof. revert i; induction l as [|y r IH]; intros [|i]; cbn [put length]; auto. Qed.

Lemma nth_put_other {A} i j (x : A) l d : i <> j -> nth j (put i x l) d = nth j l d.
Proof.
  revert i j; induction l as [|y r IH]; intros [|i] [|j] N; cbn [put nth]; auto; try congruence;
    try (apply IH; congruence).
Qed.

Lemma nth_error_put_same {A} i (x : A) l : i < length l -> nth_error (put i x l) i = Some x.
Proof.
  revert i; induction l as [|y r IH]; intros [|i] L; cbn [put nth_error length] in *; auto; try lia.
  apply IH; lia.
Qed.

Lemma nth_error_put_other {A} i j (x : A) l : i <> j -> nth_error (put i x l) j = nth_error l j.
Proof.
  revert i j; induction l as [|y r IH]; intros [|i] [|j] N; cbn [put nth_error]; auto; try congruence;
    try (apply IH; congruence).
Qed.

Lemma Forall2_nth {A B} (P : A -> B -> Prop) l m i :
  Forall2 P l m ->
  match nth_error l i, nth_error m i with
  | Some x, Some y => P x y
  | None, None => True
  | _, _ => False
  end.
Proof.
  intros F; revert i; induction F as [|x y l m Pxy F IH]; intros [|i]; cbn [nth_error]; auto.
  apply IH.
Qed.

Lemma Forall2_put {A B} (P : A -> B -> Prop) l m i x y :
  Forall2 P l m -> nth_error m i = Some y -> P x y -> Forall2 P (put i x l) m.
Proof.
  intros F; revert i; induction F as [|x' y' l m Pxy F IH]; intros [|i] N Q; cbn [put nth_error] in *;
    try discriminate.
  - injection N as ->. constructor; auto.
  - constructor; auto.
Qed.

Lemma Forall2_impl {A B} (P Q : A -> B -> Prop) l m :
  (forall x y, P x y -> Q x y) -> Forall2 P l m -> Forall2 Q l m.
Proof. induction 2; constructor; auto. Qed.

Lemma Forall2_len {A B} (P : A -> B -> Prop) l m : Forall2 P l m -> length l = length m.
Proof. induction 1; cbn [length]; auto. Qed.

(** ** The objects stand for the specification's KeySets *)
Section Sim.
Variable W : world.

Definition read (ls : list (list string)) (c : colarg) : list string :=
  match c with Given cs => cs | Kept l => nth l ls [] end.

(** [K]: the lists handed out so far. *)
Record stands (K : list nat) (ls : list (list string)) (o : object) (k : keyset) : Prop := {
  st_tree : o_tree o = ks_tree k;
  st_cols : read ls (o_cols o) = ks_cols k;
  st_kept : forall l, o_cols o = Kept l -> In l K /\ l < length ls;
  st_frame : forall f, o_frame o = Some f -> ks_dataframe W k = Ok f;
  st_size : forall n, o_size o = Some n -> ks_size W k = Ok n
}.

Record sim (K : list nat) (h : heap) (s : shelf) : Prop := {
  sim_lists : lists h = s_lists s;
  sim_objects : Forall2 (stands K (s_lists s)) (objects h) (s_keysets s)
}.

Lemma names_read h s c : lists h = s_lists s -> names h c = read (s_lists s) c.
Proof. intros <-. destruct c; reflexivity. Qed.

Lemma stands_view K h s o k : lists h = s_lists s -> stands K (s_lists s) o k -> view h o = k.
Proof.
  intros L [T C _ _ _]. unfold view. rewrite (names_read h s _ L), C, T. destruct k; reflexivity.
Qed.

Lemma find_sim K h s a : sim K h s ->
  match find (objects h) a, find (s_keysets s) a with
  | Ok o, Ok k => stands K (s_lists s) o k /\ view h o = k
  | Err e, Err e' => e = e'
  | _, _ => False
  end.
Proof.
  intros [L F]. unfold find. pose proof (Forall2_nth _ _ _ a F) as N.
  destruct (nth_error (objects h) a), (nth_error (s_keysets s) a); try contradiction; auto.
  split; auto. eapply stands_view; eauto.
Qed.

Lemma look_sim K h s a : sim K h s -> look h a = find (s_keysets s) a.
Proof.
  intros S. unfold look. pose proof (find_sim K h s a S) as F.
  destruct (find (objects h) a), (find (s_keysets s) a); cbn [bind]; try contradiction.
  - destruct F as [_ ->]. reflexivity.
  - congruence.
Qed.

Lemma names_sim K h s c {A} (f : list string -> res A) : sim K h s ->
  (let* _ := exists_list h c in f (names h c)) = (let* l := s_names s c in f l).
Proof.
  intros [L _]. destruct c as [cs|l]; cbn [exists_list s_names names bind]; [reflexivity|].
  unfold find, raise_if. rewrite L. destruct (Nat.ltb_spec l (length (s_lists s))) as [H|H]; cbn [negb bind].
  - rewrite (nth_error_nth' _ [] H). reflexivity.
  - apply nth_error_None in H. rewrite H. reflexivity.
Qed.

Lemma stands_weaken K K' ls o k : incl K K' -> stands K ls o k -> stands K' ls o k.
Proof.
  intros I [A B C D E]. constructor; auto. intros l H. destruct (C l H). split; auto.
Qed.

Lemma sim_weaken K K' h s : incl K K' -> sim K h s -> sim K' h s.
Proof.
  intros I [A B]. constructor; auto. eapply Forall2_impl; [|exact B].
  intros o k. apply stands_weaken; auto.
Qed.

(** Making a KeySet. *)
Lemma keep_sim K h s r (c : keyset -> colarg) :
  sim K h s ->
  (forall k, r = Ok k -> read (s_lists s) (c k) = ks_cols k
     /\ forall l, c k = Kept l -> In l K /\ l < length (s_lists s)) ->
  let (h', a) := keep h r c in let (s', a') := s_keep s r in sim K h' s' /\ a = a'.
Proof.
  intros [L F] C. destruct r as [k|e]; cbn [keep s_keep]; [|split; auto; constructor; auto].
  destruct (C k eq_refl) as [Rd Kp]. split.
  - constructor; cbn [add lists objects s_lists s_keysets]; auto.
    apply Forall2_app; auto. constructor; [|constructor].
    constructor; cbn [fresh o_tree o_cols o_frame o_size]; auto; discriminate.
  - rewrite (Forall2_len _ _ _ F). reflexivity.
Qed.

Lemma keep_own K h s r : sim K h s ->
  let (h', a) := keep h r own in let (s', a') := s_keep s r in sim K h' s' /\ a = a'.
Proof.
  intros S. apply keep_sim; auto. intros k _. split; [reflexivity|]. discriminate.
Qed.

(** Assigning to the remembered fields. *)
Lemma update_sim K h s a o k o' es : sim K h s ->
  find (objects h) a = Ok o -> find (s_keysets s) a = Ok k ->
  stands K (s_lists s) o' k -> sim K (update h a o' es) s.
Proof.
  intros [L F] _ E St. constructor; cbn [update lists objects]; auto.
  unfold find in E. destruct (nth_error (s_keysets s) a) eqn:N; [injection E as ->|discriminate].
  eapply Forall2_put; eauto.
Qed.

Lemma dataframe_sim K h s a : sim K h s ->
  sim K (fst (dataframe_of W h a)) s
  /\ snd (dataframe_of W h a) = one s a (for_keyset AttributeError (ks_dataframe W)).
Proof.
  intros S. unfold dataframe_of, one. pose proof (find_sim K h s a S) as F.
  destruct (find (objects h) a) as [o|e] eqn:Eo, (find (s_keysets s) a) as [k|e'] eqn:Ek; try contradiction;
    cbn [bind]; [|subst; auto].
  destruct F as [St V]. rewrite V. unfold for_keyset.
  destruct (ks_plan k); [auto|].
  destruct (o_frame o) as [f|] eqn:Ef.
  - split; auto. cbn [snd]. symmetry. apply (st_frame _ _ _ _ St); auto.
  - destruct (ks_dataframe W k) as [f|e] eqn:Ed; [|auto]. split; auto.
    eapply update_sim; eauto. destruct St. constructor; cbn [o_tree o_cols o_frame o_size]; auto.
    intros f' [= <-]. auto.
Qed.

Lemma size_sim K h s a : sim K h s ->
  sim K (fst (size_of W h a)) s
  /\ snd (size_of W h a) = one s a (for_keyset AttributeError (ks_size W)).
Proof.
  intros S. unfold size_of, one. pose proof (find_sim K h s a S) as F.
  destruct (find (objects h) a) as [o|e] eqn:Eo, (find (s_keysets s) a) as [k|e'] eqn:Ek; try contradiction;
    cbn [bind]; [|subst; auto].
  destruct F as [St V]. rewrite V. unfold for_keyset.
  destruct (ks_plan k); [auto|].
  destruct (o_size o) as [f|] eqn:Ef.
  - split; auto. cbn [snd]. symmetry. apply (st_size _ _ _ _ St); auto.
  - destruct (ks_size W k) as [f|e] eqn:Ed; [|auto]. split; auto.
    eapply update_sim; eauto. destruct St. constructor; cbn [o_tree o_cols o_frame o_size]; auto.
    intros f' [= <-]. auto.
Qed.

Lemma cache_sim K h s a : sim K h s ->
  sim K (fst (cache h a)) s
  /\ snd (cache h a) = (let* _ := one s a (for_keyset AttributeError Ok) in Ok ANone).
Proof.
  intros S. unfold cache, one. pose proof (find_sim K h s a S) as F.
  destruct (find (objects h) a) as [o|e] eqn:Eo, (find (s_keysets s) a) as [k|e'] eqn:Ek; try contradiction;
    cbn [bind]; [|subst; auto].
  destruct F as [St V]. rewrite V. unfold for_keyset.
  destruct (ks_plan k); [auto|]. destruct (o_cached o); [auto|].
  split; auto. eapply update_sim; eauto. destruct St. constructor; auto.
Qed.

Lemma uncache_sim K h s a : sim K h s ->
  sim K (fst (uncache h a)) s
  /\ snd (uncache h a) = (let* _ := one s a (for_keyset AttributeError Ok) in Ok ANone).
Proof.
  intros S. unfold uncache, one. pose proof (find_sim K h s a S) as F.
  destruct (find (objects h) a) as [o|e] eqn:Eo, (find (s_keysets s) a) as [k|e'] eqn:Ek; try contradiction;
    cbn [bind]; [|subst; auto].
  destruct F as [St V]. rewrite V. unfold for_keyset.
  destruct (ks_plan k); [auto|].
  split; auto. eapply update_sim; eauto. destruct St. constructor; auto.
Qed.

(** ** Equality *)
Lemma smem_in c l : smem c l = true <-> In c l.
Proof.
  unfold smem. rewrite existsb_exists. split.
  - intros (x & I & E). apply String.eqb_eq in E. subst; auto.
  - intros I. exists c. split; auto. apply String.eqb_refl.
Qed.

Lemma subset_incl a b : subset a b = true <-> incl a b.
Proof.
  unfold subset. rewrite forallb_forall. unfold incl. split; intros H c I.
  - apply smem_in. auto.
  - apply smem_in. auto.
Qed.

Lemma dataframe_cols k f : ks_dataframe W k = Ok f -> fcols f = ks_cols k.
Proof.
  unfold ks_dataframe. intros H. apply bind_ok in H as (d & _ & H).
  apply bind_ok in H as (u & _ & H). injection H as <-. reflexivity.
Qed.

Lemma schema_keys k s c : ks_schema k = Ok s -> In c (dkeys s) <-> In c (ks_cols k).
Proof.
  unfold ks_schema. intros H. apply bind_ok in H as (t & _ & H). apply bind_ok in H as (ds & M & H).
  injection H as <-. rewrite KeySetApi.dict_of_keys.
  apply mapM_ok_Forall2 in M. revert M. generalize (ks_cols k). intros cs M.
  induction M as [|x y cs ds Hx M IH]; cbn [map In]; [tauto|].
  apply bind_ok in Hx as (d & _ & Hx). injection Hx as <-. cbn [fst]. rewrite IH. tauto.
Qed.

Lemma undecided_same_columns a b : ks_plan a = ks_plan b -> ks_plan a = false ->
  ks_is_equivalent a b = Ok None -> incl (ks_cols a) (ks_cols b).
Proof.
  intros E P H. unfold ks_is_equivalent in H. rewrite <- E, eqb_reflx, P in H. cbn [negb] in H.
  apply bind_ok in H as (e & _ & H). destruct e; [discriminate|].
  apply bind_ok in H as (sa & Sa & H). apply bind_ok in H as (sb & Sb & H).
  destruct (types_dict_eqb (types_dict sa) (types_dict sb)) eqn:T; [|discriminate].
  intros c I. apply (schema_keys _ _ _ Sa) in I. apply (schema_keys _ _ _ Sb).
  unfold types_dict_eqb in T. apply andb_true_iff in T as [T _]. rewrite forallb_forall in T.
  unfold dkeys in I. apply in_map_iff in I as ([x d] & <- & I). cbn [fst].
  specialize (T (x, cd_type d)). cbn [fst snd] in T.
  assert (J : In (x, cd_type d) (types_dict sa)) by (apply in_map_iff; exists (x, d); auto).
  apply T in J. destruct (dget x (types_dict sb)) eqn:G; [|discriminate].
  apply dget_In in G. unfold types_dict in G. apply in_map_iff in G as ([y d'] & G & I').
  injection G as <- _. unfold dkeys. apply in_map_iff. exists (y, d'). auto.
Qed.

Lemma select_own f k cs : ks_dataframe W k = Ok f -> incl cs (ks_cols k) ->
  select_columns cs f = Ok (fselect cs f).
Proof.
  intros D I. unfold select_columns. rewrite (dataframe_cols _ _ D).
  apply subset_incl in I. rewrite I. reflexivity.
Qed.

Lemma equal_sim K h s a b : sim K h s ->
  sim K (fst (equal W h a b)) s
  /\ snd (equal W h a b) = (let* v := two s a b (ks_eq W) in Ok (AVerdict (Some v))).
Proof.
  intros S. unfold equal, two. rewrite !(look_sim K h s _ S).
  destruct (find (s_keysets s) a) as [ka|ea] eqn:Ea; cbn [bind]; [|auto].
  destruct (find (s_keysets s) b) as [kb|eb] eqn:Eb; cbn [bind]; [|auto].
  unfold ks_eq.
  destruct (Bool.eqb (ks_plan ka) (ks_plan kb)) eqn:P; cbn [negb bind]; [|auto].
  apply eqb_prop in P.
  destruct (ks_is_equivalent ka kb) as [[v|]|e] eqn:Q; cbn [bind]; [auto| |auto].
  destruct (ks_plan ka) eqn:Pa; cbn [bind]; [auto|].
  destruct (dataframe_sim K h s a S) as [S1 R1].
  destruct (dataframe_of W h a) as [h1 ra] eqn:D1. cbn [fst snd] in S1, R1.
  unfold one in R1. rewrite Ea in R1. cbn [bind] in R1. unfold for_keyset in R1. rewrite Pa in R1. subst ra.
  destruct (ks_dataframe W ka) as [fa|e] eqn:Fa; cbn [bind]; [|auto].
  rewrite (select_own _ _ _ Fa (incl_refl _)).
  destruct (dataframe_sim K h1 s b S1) as [S2 R2].
  destruct (dataframe_of W h1 b) as [h2 rb] eqn:D2. cbn [fst snd] in S2, R2.
  unfold one in R2. rewrite Eb in R2. cbn [bind] in R2. unfold for_keyset in R2. rewrite <- P in R2. subst rb.
  destruct (ks_dataframe W kb) as [fb|e] eqn:Fb; cbn [bind]; [|auto].
  assert (I : incl (ks_cols ka) (ks_cols kb)).
  { apply undecided_same_columns; [congruence|exact Pa|exact Q]. }
  rewrite (select_own _ _ _ Fb I). cbn [fst snd]. split; [exact S2|].
  set (sa := fselect (ks_cols ka) fa). set (sb := fselect (ks_cols ka) fb).
  destruct (is_nil (except_all (frows sa) (frows sb))); cbn [negb bind andb]; [|reflexivity].
  destruct (is_nil (except_all (frows sb) (frows sa))); reflexivity.
Qed.

(** ** One call, all calls *)
Definition handed (c : call) : list nat :=
  match c with
  | FromTuplesCall _ (Kept m) | DetectCall (Kept m) | SelectCall _ (Kept m) => [m]
  | _ => []
  end.
Lemma handed_hands c l : In l (handed c) <-> hands c l.
Proof.
  destruct c as [| |ts [|]| | |[|]| | |a [|]| | | | | | | | | | | |]; cbn; intuition.
Qed.

Lemma mk_cols plan o cs k : mkEither W plan o cs = Ok k -> ks_cols k = cs.
Proof.
  unfold mkEither, mkKeySet, mkKeySetPlan. intros H. destruct plan;
    repeat (apply bind_ok in H as (? & _ & H)); injection H as <-; reflexivity.
Qed.
Lemma mkKeySet_cols o cs k : mkKeySet W o cs = Ok k -> ks_cols k = cs.
Proof. exact (mk_cols false o cs k). Qed.
Lemma mkPlan_cols o cs k : mkKeySetPlan W o cs = Ok k -> ks_cols k = cs.
Proof. exact (mk_cols true o cs k). Qed.

Lemma from_tuples_cols ts cs k : from_tuples W ts cs = Ok k -> ks_cols k = cs.
Proof.
  unfold from_tuples. intros H. repeat (apply bind_ok in H as (? & _ & H)).
  injection H as <-. reflexivity.
Qed.
Lemma detect_cols cs k : detect W cs = Ok k -> ks_cols k = cs.
Proof.
  unfold detect. intros H. apply bind_ok in H as (? & _ & H). eapply mkPlan_cols; eauto.
Qed.
Lemma project_cols a cs k : ks_project W a cs = Ok k -> ks_cols k = cs.
Proof.
  unfold ks_project. intros H. apply bind_ok in H as (? & _ & H). apply bind_ok in H as (? & _ & H).
  destruct (ks_plan a).
  - apply bind_ok in H as (? & _ & H). eapply mk_cols; eauto.
  - eapply mkKeySet_cols; eauto.
Qed.

(** A call that hands over [cs]. *)
Lemma keep_handed K h s cs (f : list string -> res keyset) : sim K h s ->
  (forall l, cs = Kept l -> In l K) ->
  (forall l k, f l = Ok k -> ks_cols k = l) ->
  let (h', a) := keep h (let* l := s_names s cs in f l) (fun _ => cs) in
  let (s', a') := s_keep s (let* l := s_names s cs in f l) in sim K h' s' /\ a = a'.
Proof.
  intros S I C. apply keep_sim; auto. intros k H. apply bind_ok in H as (l & N & H).
  apply C in H. subst l. destruct cs as [cs|l]; cbn [s_names read] in *.
  - injection N as ->. split; auto. discriminate.
  - unfold find in N. destruct (nth_error (s_lists s) l) eqn:G; [|discriminate]. injection N as <-.
    split; [apply nth_error_nth; auto|]. intros l' [= <-]. split; auto.
    apply nth_error_Some. congruence.
Qed.

Lemma step_sim K h s c : sim K h s ->
  (forall l new, c = SetList l new -> ~ In l K) ->
  let (h', a) := step W h c in let (s', a') := spec_step W s c in
  sim (handed c ++ K) h' s' /\ a = a'.
Proof.
  intros S N.
  assert (S' : sim (handed c ++ K) h s).
  { eapply sim_weaken; [|exact S]. intros x I. apply in_or_app. auto. }
  destruct c; cbn [step spec_step].
  - (* NewList *) destruct S as [L F]. split; [|rewrite L; reflexivity].
    constructor; cbn [lists objects s_lists s_keysets handed app]; [rewrite L; reflexivity|].
    eapply Forall2_impl; [|exact F]. intros o k [A B C D E]. constructor; auto.
    + destruct (o_cols o) as [cs'|l]; cbn [read] in *; auto. destruct (C l eq_refl) as [_ Lt].
      rewrite app_nth1; auto.
    + intros l H. destruct (C l H) as [? Lt]. split; auto. rewrite app_length. lia.
  - (* SetList *) destruct S as [L F]. specialize (N l cs eq_refl). unfold find.
    rewrite L. destruct (Nat.ltb_spec l (length (s_lists s))) as [H|H].
    + rewrite (nth_error_nth' _ [] H). split; [|reflexivity].
      constructor; cbn [lists objects s_lists s_keysets handed app]; [reflexivity|].
      eapply Forall2_impl; [|exact F]. intros o k [A B C D E]. constructor; auto.
      * destruct (o_cols o) as [cs'|m] eqn:G; cbn [read] in *; auto. destruct (C m eq_refl) as [I _].
        rewrite nth_put_other; auto. intros ->. contradiction.
      * intros m G. destruct (C m G). rewrite put_length. auto.
    + apply nth_error_None in H. rewrite H. split; [constructor; auto|reflexivity].
  - rewrite (names_sim _ h s cs (from_tuples W ts) S'). apply keep_handed; auto.
    + intros l ->. cbn [handed app]. left; auto.
    + intros l k. apply from_tuples_cols.
  - apply keep_own; auto.
  - apply keep_own; auto.
  - rewrite (names_sim _ h s cs (detect W) S'). apply keep_handed; auto.
    + intros l ->. cbn [handed app]. left; auto.
    + intros l k. apply detect_cols.
  - rewrite !(look_sim _ h s _ S'). apply keep_own; auto.
  - rewrite !(look_sim _ h s _ S'). apply keep_own; auto.
  - rewrite !(look_sim _ h s _ S'). unfold one.
    destruct (find (s_keysets s) a) as [k|e]; cbn [bind]; [|split; auto].
    rewrite (names_sim _ h s cs (ks_project W k) S'). apply keep_handed; auto.
    + intros l ->. cbn [handed app]. left; auto.
    + intros l k'. apply project_cols.
  - rewrite !(look_sim _ h s _ S'). apply keep_own; auto.
  - rewrite !(look_sim _ h s _ S'). apply keep_own; auto.
  - rewrite !(look_sim _ h s _ S'). apply keep_own; auto.
  - rewrite !(look_sim _ h s _ S'). split; [exact S'|]. unfold one.
    destruct (find (s_keysets s) a); reflexivity.
  - rewrite !(look_sim _ h s _ S'). split; [exact S'|]. unfold one.
    destruct (find (s_keysets s) a) as [k|e]; cbn [bind]; [|reflexivity].
    unfold keyset_only, for_keyset, raise_if. destruct (ks_plan k); reflexivity.
  - destruct (dataframe_sim _ h s a S') as [S1 R]. destruct (dataframe_of W h a) as [h1 r].
    cbn [fst snd] in S1, R. subst r. split; [exact S1|]. reflexivity.
  - destruct (size_sim _ h s a S') as [S1 R]. destruct (size_of W h a) as [h1 r].
    cbn [fst snd] in S1, R. subst r. split; [exact S1|]. reflexivity.
  - destruct (cache_sim _ h s a S') as [S1 R]. destruct (cache h a) as [h1 r].
    cbn [fst snd] in S1, R. split; [exact S1|]. exact R.
  - destruct (uncache_sim _ h s a S') as [S1 R]. destruct (uncache h a) as [h1 r].
    cbn [fst snd] in S1, R. split; [exact S1|]. exact R.
  - rewrite !(look_sim _ h s _ S'). split; [exact S'|]. reflexivity.
  - destruct (equal_sim _ h s a b S') as [S1 R]. destruct (equal W h a b) as [h1 r].
    cbn [fst snd] in S1, R. split; [exact S1|]. exact R.
  - rewrite !(look_sim _ h s _ S'). split; [exact S'|]. unfold one.
    destruct (find (s_keysets s) a) as [k|e]; cbn [bind]; [|reflexivity].
    unfold hash_of, for_keyset, raise_if. destruct (ks_plan k); reflexivity.
Qed.

Lemma run_sim K h s cs : sim K h s ->
  (forall before l new after, cs = (before ++ SetList l new :: after)%list ->
     ~ In l K /\ forall c, In c before -> ~ hands c l) ->
  snd (run W h cs) = spec_run W s cs.
Proof.
  revert K h s. induction cs as [|c r IH]; intros K h s S N; cbn [run spec_run]; [reflexivity|].
  pose proof (step_sim K h s c S) as Q.
  destruct (step W h c) as [h1 a], (spec_step W s c) as [s1 a'].
  destruct Q as [S1 ->].
  { intros l new ->. destruct (N [] l new r eq_refl). auto. }
  specialize (IH (handed c ++ K)%list h1 s1 S1). destruct (run W h1 r) as [h2 t]. cbn [snd] in *.
  rewrite IH; [reflexivity|]. intros before l new after ->.
  destruct (N (c :: before) l new after eq_refl) as [A B]. split.
  - rewrite in_app_iff, handed_hands. intros [I|I]; [|contradiction]. apply (B c); cbn; auto.
  - intros c' I. apply B. cbn; auto.
Qed.

Lemma sim_empty : sim [] empty bare.
Proof. constructor; constructor. Qed.

Lemma run_spec cs : lists_left_alone cs -> snd (run W empty cs) = spec_run W bare cs.
Proof.
  intros H. apply (run_sim []); [apply sim_empty|]. intros before l new after E. split; [intros []|].
  intros c. eapply H; eauto.
Qed.
End Sim.
