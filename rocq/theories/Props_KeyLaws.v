(** Property C70: KeySets obey the laws of relational algebra. *)
From Coq Require Import String Bool Arith ZArith Lia List.
From Verif Require Import Prelude Value KeySet KeySetSem KeySetRules KeySetApi KeySetTotalApi Props_KeySet.
Import ListNotations.
Local Open Scope string_scope.
Local Open Scope list_scope.

(** ** Specification *)

(** A KeySet that can be written down: the documented requirements of the operations are met,
    and the side conditions of C08 and C10. *)
Definition accepted (W : world) (D : oracle) (e : kexpr) : Prop := usable W D e /\ kvalid W e /\ concrete e = true.
(** Columns that are only in one of two KeySets. *)
Definition apart (a b : kexpr) : Prop := forall c, In c (kcols a) -> In c (kcols b) -> False.
Definition within (cs : list string) (a : kexpr) : Prop := forall c, In c cs -> In c (kcols a).

(** The laws. *)
Inductive law : kexpr -> kexpr -> Prop :=
(* products *)
| LMulComm a b : law (EMul a b) (EMul b a)
| LMulAssoc a b c : law (EMul (EMul a b) c) (EMul a (EMul b c))
| LDict d d' : law (EDict (d ++ d')) (EMul (EDict d) (EDict d'))
(* joins *)
| LJoinComm a b : law (EJoin a b) (EJoin b a)
| LJoinAssoc a b c : law (EJoin (EJoin a b) c) (EJoin a (EJoin b c))
| LJoinSame a : law (EJoin a a) a
| LJoinMul a b c : apart b c -> law (EJoin (EMul a b) c) (EMul (EJoin a c) b)
| LJoinUnion a b c : law (EJoin (EUnion a b) c) (EUnion (EJoin a c) (EJoin b c))
(* unions *)
| LUnionComm a b : law (EUnion a b) (EUnion b a)
| LUnionAssoc a b c : law (EUnion (EUnion a b) c) (EUnion a (EUnion b c))
| LUnionSame a : law (EUnion a a) a
| LUnionMul a b c : law (EMul (EUnion a b) c) (EUnion (EMul a c) (EMul b c))
(* differences *)
| LSubComm a b c : law (ESub (ESub a b) c) (ESub (ESub a c) b)
| LSubTwice a b : law (ESub (ESub a b) b) (ESub a b)
| LSubUnion a b c : law (ESub a (EUnion b c)) (ESub (ESub a b) c)
| LUnionSub a b c : law (ESub (EUnion a b) c) (EUnion (ESub a c) (ESub b c))
| LMulSub a b c : within (kcols c) a -> law (ESub (EMul a b) c) (EMul (ESub a c) b)
| LSubSub a b : law (ESub a (ESub a b)) (EJoin a b)
| LSplit a b : law (EUnion (ESub a b) (EJoin a b)) a
(* filters *)
| LFilterComm a k l : law (EFilter (EFilter a k) l) (EFilter (EFilter a l) k)
| LFilterTwice a k : law (EFilter (EFilter a k) k) (EFilter a k)
| LFilterUnion a b k : law (EFilter (EUnion a b) k) (EUnion (EFilter a k) (EFilter b k))
| LFilterSub a b k : law (EFilter (ESub a b) k) (ESub (EFilter a k) b)
(* projections *)
| LProjProj a cs ds : law (EProj (EProj a cs) ds) (EProj a ds)
| LProjAll a cs : (forall c, In c cs <-> In c (kcols a)) -> law (EProj a cs) a
| LProjUnion a b cs : law (EProj (EUnion a b) cs) (EUnion (EProj a cs) (EProj b cs))
| LProjMul a b cs : within cs a -> law (EProj (EMul a b) cs) (EProj a cs)
| LProjBoth a b cs ds : within cs a -> within ds b -> law (EProj (EMul a b) (cs ++ ds)) (EMul (EProj a cs) (EProj b ds)).

(** What follows from them, by replacing parts of KeySets, in any number of steps. *)
Inductive equal_by_laws (W : world) (D : oracle) : kexpr -> kexpr -> Prop :=
| QLaw a b : law a b -> equal_by_laws W D a b
| QRefl a : equal_by_laws W D a a
| QSym a b : equal_by_laws W D a b -> equal_by_laws W D b a
| QTrans a b c : accepted W D b -> equal_by_laws W D a b -> equal_by_laws W D b c -> equal_by_laws W D a c
| QMul a b a' b' : equal_by_laws W D a a' -> equal_by_laws W D b b' -> equal_by_laws W D (EMul a b) (EMul a' b')
| QJoin a b a' b' : equal_by_laws W D a a' -> equal_by_laws W D b b' -> equal_by_laws W D (EJoin a b) (EJoin a' b')
| QUnion a b a' b' : equal_by_laws W D a a' -> equal_by_laws W D b b' -> equal_by_laws W D (EUnion a b) (EUnion a' b')
| QSub a b a' b' : equal_by_laws W D a a' -> equal_by_laws W D b b' -> equal_by_laws W D (ESub a b) (ESub a' b')
| QProj a a' cs : equal_by_laws W D a a' -> equal_by_laws W D (EProj a cs) (EProj a' cs)
| QFilter a a' k : equal_by_laws W D a a' -> equal_by_laws W D (EFilter a k) (EFilter a' k).

(** ** Proofs *)
Section Laws.
Variable W : world.
Variable D : oracle.
Notation kden := (kden W D).
Notation accepted := (accepted W D).

Definition same (a b : kexpr) : Prop :=
  (forall c, In c (kcols a) <-> In c (kcols b)) /\ (forall c t, ktyp a c t <-> ktyp b c t) /\ forall k, kden a k <-> kden b k.

Lemma acc_mul a b : accepted (EMul a b) -> accepted a /\ accepted b /\ apart a b.
Proof. intros ((U1 & U2) & (V1 & V2 & V3) & C). cbn in C. apply andb_true_iff in C as (C1 & C2). repeat split; assumption. Qed.
Lemma acc_join a b : accepted (EJoin a b) -> accepted a /\ accepted b.
Proof. intros ((U1 & U2) & (V1 & V2 & _) & C). cbn in C. apply andb_true_iff in C as (C1 & C2). repeat split; assumption. Qed.
Lemma acc_union a b : accepted (EUnion a b) -> accepted a /\ accepted b /\ (forall c, In c (kcols a) <-> In c (kcols b)) /\ forall c t, ktyp a c t <-> ktyp b c t.
Proof. intros ((U1 & U2 & _) & (V1 & V2 & V3 & V4) & C). cbn in C. apply andb_true_iff in C as (C1 & C2). split; [repeat split; assumption|]. split; [repeat split; assumption|]. split; assumption. Qed.
Lemma acc_sub a b : accepted (ESub a b) -> accepted a /\ accepted b /\ within (kcols b) a.
Proof. intros ((U1 & U2 & _) & (V1 & V2 & V3) & C). cbn in C. apply andb_true_iff in C as (C1 & C2). repeat split; assumption. Qed.
Lemma acc_proj a cs : accepted (EProj a cs) -> accepted a /\ (exists k, kden a k) /\ within cs a.
Proof. intros ((U1 & U2) & (V1 & _ & _ & V4) & C). repeat split; assumption. Qed.
Lemma acc_filter a k : accepted (EFilter a k) -> accepted a.
Proof. intros ((U1 & _) & (V1 & _) & C). repeat split; assumption. Qed.

Lemma in_join a b c : In c (kcols (EJoin a b)) <-> In c (kcols a) \/ In c (kcols b).
Proof.
  cbn [kcols]. rewrite in_app_iff, filter_In. destruct (smem c (kcols a)) eqn:M; cbn [negb].
  - apply smem_In in M. tauto.
  - apply smem_false in M. tauto.
Qed.
Lemma in_mul a b c : In c (kcols (EMul a b)) <-> In c (kcols a) \/ In c (kcols b).
Proof. cbn [kcols]. apply in_app_iff. Qed.

(** Only a KeySet's own columns matter. *)
Lemma local e : accepted e -> forall k k', (forall c, In c (kcols e) -> k c = k' c) -> kden e k -> kden e k'.
Proof.
  induction e as [ts cs|d|p d|cs|a IHa b IHb|a IHa b IHb|a IHa b IHb|a IHa b IHb|a IHa cs|a IHa c]; intros A k k' Q; cbn [KeySetApi.kden].
  - intros [->|I]; [left; reflexivity|right]. cbn [kcols] in Q. rewrite <- (map_ext_in k k' cs Q). exact I.
  - intros H c vs I. rewrite <- Q; [apply (H c vs I)|]. cbn [kcols]. apply in_map_iff. exists (c, vs). auto.
  - intros [->|I]; [left; reflexivity|right]. cbn [kcols] in Q. rewrite <- (map_ext_in k k' (map fst d) Q). exact I.
  - destruct A as (_ & _ & A). discriminate A.
  - apply acc_mul in A as (A1 & A2 & _). intros (H1 & H2). split; [apply (IHa A1 k)|apply (IHb A2 k)]; try assumption; intros c I; apply Q; apply in_mul; auto.
  - apply acc_join in A as (A1 & A2). intros (H1 & H2). split; [apply (IHa A1 k)|apply (IHb A2 k)]; try assumption; intros c I; apply Q; apply in_join; auto.
  - apply acc_union in A as (A1 & A2 & S & _). intros [H|H]; [left; exact (IHa A1 k k' Q H)|right]. apply (IHb A2 k); [|exact H]. intros c I. apply Q. cbn [kcols]. apply S, I.
  - apply acc_sub in A as (A1 & A2 & S). intros (H1 & H2). split; [exact (IHa A1 k k' Q H1)|]. intros H. apply H2. eapply IHb; [exact A2| |exact H].
    intros c I. symmetry. apply Q. cbn [kcols]. apply S, I.
  - intros (k0 & H & E). exists k0. split; [exact H|]. intros c I. rewrite <- (Q c I). apply E, I.
  - apply acc_filter in A. intros (H1 & H2). split; [exact (IHa A k k' Q H1)|]. rewrite <- H2. apply holds_ext. intros x. destruct (smem x (kcols a)) eqn:M; [|reflexivity].
    symmetry. apply Q. apply smem_In, M.
Qed.
Lemma columnless e : accepted e -> kcols e = [] -> forall k, kden e k.
Proof.
  induction e as [ts cs|d|p d|cs|a IHa b IHb|a IHa b IHb|a IHa b IHb|a IHa b IHb|a IHa cs|a IHa c]; intros A N k; cbn [KeySetApi.kden kcols] in *.
  - left. exact N.
  - destruct d; [|discriminate N]. intros c vs [].
  - left. destruct d; [reflexivity|discriminate N].
  - destruct A as (_ & _ & A). discriminate A.
  - apply acc_mul in A as (A1 & A2 & _). apply app_eq_nil in N as (N1 & N2). auto.
  - apply acc_join in A as (A1 & A2). apply app_eq_nil in N as (N1 & N2). rewrite N1 in *. cbn [smem existsb negb] in N2.
    assert (N3 : kcols b = []) by (destruct (kcols b); [reflexivity|discriminate N2]). auto.
  - apply acc_union in A as (A1 & _). auto.
  - apply acc_sub in A as AA. destruct AA as (A1 & A2 & S). destruct A as ((_ & _ & NB) & _). destruct (kcols b) as [|c l] eqn:B; [contradiction|]. exfalso.
    specialize (S c). rewrite N in S. apply S. left. reflexivity.
  - destruct A as (_ & (_ & _ & X & _) & _). contradiction.
  - destruct A as ((_ & X) & _). contradiction.
Qed.
(** Keys can be looked up. *)
Lemma decides e : accepted e -> forall k, kden e k \/ ~ kden e k.
Proof.
  intros (U & V & C) k. destruct (kcols e) as [|c0 l] eqn:N.
  - left. apply columnless; [repeat split; assumption|exact N].
  - assert (NE : kcols e <> []) by congruence. destruct (eval_total W D e U V C) as (x & E & _).
    destruct (C08_keyset_means_relational_algebra W D e x U E C NE) as (f & _ & _ & _ & _ & H).
    rewrite <- (H k). destruct (in_dec (list_eq_dec value_eq_dec) (map k (kcols e)) (frows f)); auto.
Qed.

Lemma typ_col e : accepted e -> forall c t, ktyp e c t -> In c (kcols e).
Proof.
  induction e as [ts cs|d|p d|cs|a IHa b IHb|a IHa b IHb|a IHa b IHb|a IHa b IHb|a IHa cs|a IHa k]; intros A c t; cbn [ktyp].
  - intros (i & H & _). apply nth_error_In in H. exact H.
  - intros (vs & I & _). cbn [kcols]. apply in_map_iff. exists (c, vs). auto.
  - intros (cd & I & _). cbn [kcols]. apply in_map_iff. exists (c, cd). auto.
  - intros [].
  - apply acc_mul in A as (A1 & A2 & _). rewrite in_mul. intros [H|H]; [left; apply (IHa A1 c t H)|right; apply (IHb A2 c t H)].
  - apply acc_join in A as (A1 & A2). rewrite in_join. intros [H|H]; [left; apply (IHa A1 c t H)|right; apply (IHb A2 c t H)].
  - apply acc_union in A as (A1 & _). apply (IHa A1).
  - apply acc_sub in A as (A1 & _). apply (IHa A1).
  - intros (I & _). exact I.
  - apply acc_filter in A. apply (IHa A).
Qed.

Lemma col_typ e : accepted e -> forall c, In c (kcols e) -> exists t, ktyp e c t.
Proof.
  induction e as [ts cs|d|p d|cs|a IHa b IHb|a IHa b IHb|a IHa b IHb|a IHa b IHb|a IHa cs|a IHa k]; intros A c I.
  - cbn [kcols] in I. apply In_nth_error in I as (i & I). destruct A as (_ & (_ & _ & _ & _ & V) & _). destruct (V i) as (t & _ & U); [apply nth_error_Some; congruence|].
    exists t, i. auto.
  - cbn [kcols] in I. apply in_map_iff in I as ((c0 & vs) & <- & I). destruct A as (_ & (_ & _ & V) & _). destruct (V _ _ I) as (t & _ & U). exists t, vs. auto.
  - cbn [kcols] in I. apply in_map_iff in I as ((c0 & cd) & <- & I). exists (cd_type cd), cd. auto.
  - destruct A as (_ & _ & A). discriminate A.
  - apply acc_mul in A as (A1 & A2 & _). apply in_mul in I as [I|I]; [destruct (IHa A1 c I) as (t & T)|destruct (IHb A2 c I) as (t & T)]; exists t; cbn [ktyp]; auto.
  - apply acc_join in A as (A1 & A2). apply in_join in I as [I|I]; [destruct (IHa A1 c I) as (t & T)|destruct (IHb A2 c I) as (t & T)]; exists t; cbn [ktyp]; auto.
  - apply acc_union in A as (A1 & _). exact (IHa A1 c I).
  - apply acc_sub in A as (A1 & _). exact (IHa A1 c I).
  - apply acc_proj in A as (A1 & _ & S). destruct (IHa A1 c (S c I)) as (t & T). exists t. split; [exact I|exact T].
  - apply acc_filter in A. exact (IHa A c I).
Qed.

(** A key of each of two KeySets without common columns make a key of both. *)
Lemma glue a b : accepted a -> accepted b -> apart a b -> forall k k', kden a k -> kden b k' ->
  exists k0, kden a k0 /\ kden b k0 /\ (forall c, In c (kcols a) -> k0 c = k c) /\ (forall c, In c (kcols b) -> k0 c = k' c).
Proof.
  intros A B N k k' H H'. exists (fun c => if smem c (kcols a) then k c else k' c).
  assert (L : forall c, In c (kcols a) -> (if smem c (kcols a) then k c else k' c) = k c) by (intros c I; apply smem_In in I; rewrite I; reflexivity).
  assert (R : forall c, In c (kcols b) -> (if smem c (kcols a) then k c else k' c) = k' c).
  { intros c I. destruct (smem c (kcols a)) eqn:M; [|reflexivity]. apply smem_In in M. destruct (N c M I). }
  split; [apply (local a A k); [intros c I; symmetry; apply L, I|exact H]|]. split; [apply (local b B k'); [intros c I; symmetry; apply R, I|exact H']|]. auto.
Qed.
Lemma filter_at a b k (v : valuation) : (forall c, In c (kcols a) <-> In c (kcols b)) ->
  holds W k (fun x => if smem x (kcols a) then v x else VNull) = holds W k (fun x => if smem x (kcols b) then v x else VNull).
Proof.
  intros S. apply holds_ext. intros x. destruct (smem x (kcols a)) eqn:M, (smem x (kcols b)) eqn:M'; try reflexivity.
  - apply smem_In, S, smem_In in M. congruence.
  - apply smem_In, S, smem_In in M'. congruence.
Qed.

Lemma law_sound a b : law a b -> accepted a -> accepted b -> same a b.
Proof.
  intros L A B. destruct L as [a b|a b c|d d'|a b|a b c|a|a b c N|a b c|a b|a b c|a|a b c|a b c|a b|a b c|a b c|a b c N|a b|a b|a k l|a k|a b k|a b k
    |a cs ds|a cs N|a b cs|a b cs N|a b cs ds N N'].
  - split; [intros c; rewrite !in_mul; tauto|]. split; [intros c t; cbn [ktyp]; tauto|]. intros v; cbn [KeySetApi.kden]; tauto.
  - split; [intros x; rewrite !in_mul; tauto|]. split; [intros x t; cbn [ktyp]; tauto|]. intros v; cbn [KeySetApi.kden]; tauto.
  - split; [|split].
    + intros x. rewrite in_mul. cbn [kcols]. rewrite map_app. apply in_app_iff.
    + intros x t. cbn [ktyp]. split.
      * intros (vs & I & U). apply in_app_iff in I as [I|I]; [left|right]; exists vs; auto.
      * intros [(vs & I & U)|(vs & I & U)]; exists vs; (split; [apply in_app_iff; auto|exact U]).
    + intros v. cbn [KeySetApi.kden]. split.
      * intros H. split; intros x vs I; apply (H x vs); apply in_app_iff; auto.
      * intros (H & H') x vs I. apply in_app_iff in I as [I|I]; [apply (H x vs I)|apply (H' x vs I)].
  - split; [intros c; rewrite !in_join; tauto|]. split; [intros c t; cbn [ktyp]; tauto|]. intros v; cbn [KeySetApi.kden]; tauto.
  - split; [intros x; rewrite !in_join; tauto|]. split; [intros x t; cbn [ktyp]; tauto|]. intros v; cbn [KeySetApi.kden]; tauto.
  - split; [intros x; rewrite !in_join; tauto|]. split; [intros x t; cbn [ktyp]; tauto|]. intros v; cbn [KeySetApi.kden]; tauto.
  - split; [intros x; rewrite in_join, !in_mul, in_join; tauto|]. split; [intros x t; cbn [ktyp]; tauto|]. intros v; cbn [KeySetApi.kden]; tauto.
  - apply acc_join in A as (A & C). apply acc_union in A as (A1 & A2 & S & T).
    split; [intros x; rewrite in_join; change (kcols (EUnion a b)) with (kcols a); change (kcols (EUnion (EJoin a c) (EJoin b c))) with (kcols (EJoin a c)); rewrite in_join; tauto|].
    split; [intros x t; cbn [ktyp]; tauto|]. intros v; cbn [KeySetApi.kden]; tauto.
  - apply acc_union in A as (A1 & A2 & S & T). split; [exact S|]. split; [exact T|]. intros v; cbn [KeySetApi.kden]; tauto.
  - split; [cbn [kcols]; tauto|]. split; [cbn [ktyp]; tauto|]. intros v; cbn [KeySetApi.kden]; tauto.
  - split; [cbn [kcols]; tauto|]. split; [cbn [ktyp]; tauto|]. intros v; cbn [KeySetApi.kden]; tauto.
  - split; [intros x; cbn [kcols]; tauto|]. split; [intros x t; cbn [ktyp]; tauto|]. intros v; cbn [KeySetApi.kden]; tauto.
  - split; [cbn [kcols]; tauto|]. split; [cbn [ktyp]; tauto|]. intros v; cbn [KeySetApi.kden]; tauto.
  - split; [cbn [kcols]; tauto|]. split; [cbn [ktyp]; tauto|]. intros v; cbn [KeySetApi.kden]; tauto.
  - split; [cbn [kcols]; tauto|]. split; [cbn [ktyp]; tauto|]. intros v; cbn [KeySetApi.kden]; tauto.
  - split; [cbn [kcols]; tauto|]. split; [cbn [ktyp]; tauto|]. intros v; cbn [KeySetApi.kden]; tauto.
  - split; [cbn [kcols]; tauto|]. split; [cbn [ktyp]; tauto|]. intros v; cbn [KeySetApi.kden]; tauto.
  - assert (T : forall c t t', ktyp a c t -> ktyp b c t' -> t = t') by apply B. apply acc_join in B as (A1 & B1). apply acc_sub in A as (_ & A & _). apply acc_sub in A as (_ & _ & S).
    split; [intros x; rewrite in_join; cbn [kcols]; specialize (S x); tauto|]. split; [|intros v; cbn [KeySetApi.kden]; destruct (decides b B1 v); tauto].
    intros x t; cbn [ktyp]. split; [tauto|]. intros [H|H]; [exact H|]. destruct (col_typ a A1 x) as (t' & H'); [apply S; eapply typ_col; eassumption|].
    rewrite <- (T x t' t H' H). exact H'.
  - apply acc_union in A as (_ & A & _). apply acc_join in A as (A1 & B1). split; [cbn [kcols]; tauto|]. split; [cbn [ktyp]; tauto|].
    intros v; cbn [KeySetApi.kden]; destruct (decides b B1 v); tauto.
  - split; [cbn [kcols]; tauto|]. split; [cbn [ktyp]; tauto|]. intros v; cbn [KeySetApi.kden kcols]; tauto.
  - split; [cbn [kcols]; tauto|]. split; [cbn [ktyp]; tauto|]. intros v; cbn [KeySetApi.kden kcols]; tauto.
  - apply acc_filter, acc_union in A as (A1 & A2 & S & T). split; [cbn [kcols]; tauto|]. split; [cbn [ktyp]; tauto|].
    intros v; cbn [KeySetApi.kden kcols]. rewrite (filter_at a b k v S). tauto.
  - split; [cbn [kcols]; tauto|]. split; [cbn [ktyp]; tauto|]. intros v; cbn [KeySetApi.kden kcols]; tauto.
  - apply acc_proj in A as (A & _ & S). apply acc_proj in A as (A & _ & S'). cbn [kcols] in S. split; [cbn [kcols]; tauto|]. split; [intros x t; cbn [ktyp]; specialize (S x); tauto|].
    intros v; cbn [KeySetApi.kden]. split.
    + intros (v1 & (v2 & H & E) & E'). exists v2. split; [exact H|]. intros x I. rewrite (E' x I). apply E, S, I.
    + intros (v2 & H & E). exists v2. split; [exists v2; auto|exact E].
  - split; [exact N|]. split; [intros x t; cbn [ktyp]; split; [tauto|]; intros H; split; [apply N; eapply typ_col; eassumption|exact H]|].
    intros v; cbn [KeySetApi.kden]. split.
    + intros (v1 & H & E). apply (local a B v1); [|exact H]. intros x I. symmetry. apply E, N, I.
    + intros H. exists v. auto.
  - split; [cbn [kcols]; tauto|]. split; [cbn [ktyp]; tauto|]. intros v; cbn [KeySetApi.kden]. split.
    + intros (v1 & [H|H] & E); [left|right]; exists v1; auto.
    + intros [(v1 & H & E)|(v1 & H & E)]; exists v1; auto.
  - apply acc_proj in A as (A & (v0 & H0) & _). apply acc_mul in A as (A1 & A2 & P). cbn [KeySetApi.kden] in H0.
    split; [cbn [kcols]; tauto|]. split.
    + intros x t; cbn [ktyp]. split; [|tauto]. intros (I & [H|H]); [tauto|]. destruct (P x (N x I)). eapply typ_col; eassumption.
    + intros v; cbn [KeySetApi.kden]. split; [intros (v1 & (H & _) & E); exists v1; auto|]. intros (v1 & H & E).
      destruct (glue a b A1 A2 P v1 v0 H (proj2 H0)) as (v2 & G1 & G2 & G3 & _). exists v2. split; [auto|]. intros x I. rewrite (E x I). symmetry. apply G3, N, I.
  - apply acc_proj in A as (A & _ & _). apply acc_mul in A as (A1 & A2 & P). split; [intros x; rewrite in_mul; cbn [kcols]; apply in_app_iff|]. split.
    + intros x t; cbn [ktyp]. rewrite in_app_iff. split; [|tauto]. intros (I & [H|H]); pose proof H as C; eapply typ_col in C; try eassumption.
      * destruct I as [I|I]; [tauto|]. destruct (P x C (N' x I)).
      * destruct I as [I|I]; [|tauto]. destruct (P x (N x I) C).
    + intros v; cbn [KeySetApi.kden]. split.
      * intros (v1 & (H & H') & E). split; exists v1; (split; [assumption|]; intros x I; apply E, in_app_iff; auto).
      * intros ((v1 & H & E) & (v2 & H' & E')). destruct (glue a b A1 A2 P v1 v2 H H') as (v3 & G1 & G2 & G3 & G4). exists v3. split; [auto|].
        intros x I. apply in_app_iff in I as [I|I]; [rewrite (E x I); symmetry; apply G3, N, I|rewrite (E' x I); symmetry; apply G4, N', I].
Qed.
Lemma equal_sound a b : equal_by_laws W D a b -> accepted a -> accepted b -> same a b.
Proof.
  intros Q. induction Q as [a b L|a|a b Q IH|a b c M Q IH Q' IH'|a b a' b' Q IH Q' IH'|a b a' b' Q IH Q' IH'|a b a' b' Q IH Q' IH'|a b a' b' Q IH Q' IH'|a a' cs Q IH|a a' k Q IH]; intros A B.
  - apply law_sound; assumption.
  - split; [tauto|]. split; [tauto|]. tauto.
  - destruct (IH B A) as (S1 & S2 & S3). split; [intros c; rewrite S1; tauto|]. split; [intros c t; rewrite S2; tauto|]. intros k. rewrite S3. tauto.
  - destruct (IH A M) as (S1 & S2 & S3), (IH' M B) as (T1 & T2 & T3). split; [intros x; rewrite S1; apply T1|]. split; [intros x t; rewrite S2; apply T2|]. intros k. rewrite S3. apply T3.
  - apply acc_mul in A as (A1 & A2 & _), B as (B1 & B2 & _). destruct (IH A1 B1) as (S1 & S2 & S3), (IH' A2 B2) as (T1 & T2 & T3).
    split; [intros x; rewrite !in_mul, S1, T1; tauto|]. split; [intros x t; cbn [ktyp]; rewrite S2, T2; tauto|]. intros v; cbn [KeySetApi.kden]. rewrite S3, T3. tauto.
  - apply acc_join in A as (A1 & A2), B as (B1 & B2). destruct (IH A1 B1) as (S1 & S2 & S3), (IH' A2 B2) as (T1 & T2 & T3).
    split; [intros x; rewrite !in_join, S1, T1; tauto|]. split; [intros x t; cbn [ktyp]; rewrite S2, T2; tauto|]. intros v; cbn [KeySetApi.kden]. rewrite S3, T3. tauto.
  - apply acc_union in A as (A1 & A2 & _), B as (B1 & B2 & _). destruct (IH A1 B1) as (S1 & S2 & S3), (IH' A2 B2) as (T1 & T2 & T3).
    split; [exact S1|]. split; [exact S2|]. intros v; cbn [KeySetApi.kden]. rewrite S3, T3. tauto.
  - apply acc_sub in A as (A1 & A2 & _), B as (B1 & B2 & _). destruct (IH A1 B1) as (S1 & S2 & S3), (IH' A2 B2) as (T1 & T2 & T3).
    split; [exact S1|]. split; [exact S2|]. intros v; cbn [KeySetApi.kden]. rewrite S3, T3. tauto.
  - apply acc_proj in A as (A1 & _), B as (B1 & _). destruct (IH A1 B1) as (S1 & S2 & S3). split; [cbn [kcols]; tauto|]. split; [intros x t; cbn [ktyp]; rewrite S2; tauto|].
    intros v; cbn [KeySetApi.kden]. split; intros (k & H & E); exists k; (split; [apply S3, H|exact E]).
  - apply acc_filter in A, B. destruct (IH A B) as (S1 & S2 & S3). split; [exact S1|]. split; [exact S2|]. intros v; cbn [KeySetApi.kden]. rewrite S3, (filter_at a a' k v S1). tauto.
Qed.
End Laws.

(** Tables with the same keys, up to the order of columns, have the same size. *)
Definition key_of (cols : list string) (r : row) : valuation := fun c => match dget c (combine cols r) with Some v => v | None => VNull end.
Lemma key_back cols : NoDup cols -> forall r, length r = length cols -> map (key_of cols r) cols = r.
Proof.
  intros N. induction N as [|c cols NI N IH]; intros r L; destruct r as [|v r]; try discriminate L; [reflexivity|]. cbn [map].
  f_equal.
  - unfold key_of. cbn [combine dget]. rewrite String.eqb_refl. reflexivity.
  - rewrite <- (IH r) at 2 by (cbn in L; lia). apply map_ext_in. intros x I. unfold key_of. cbn [combine dget]. destruct (String.eqb_spec x c) as [->|]; [contradiction|reflexivity].
Qed.
Lemma rows_le (cols cols' : list string) (rows rows' : list row) : NoDup cols -> (forall c, In c cols -> In c cols') -> (forall r, In r rows -> length r = length cols) -> NoDup rows ->
  (forall key : valuation, In (map key cols) rows -> In (map key cols') rows') -> (length rows <= length rows')%nat.
Proof.
  intros NC S L N K. rewrite <- (map_length (fun r => map (key_of cols r) cols') rows). apply NoDup_incl_length.
  - assert (X : forall l, (forall r, In r l -> In r rows) -> NoDup l -> NoDup (map (fun r => map (key_of cols r) cols') l)); [|apply X; auto].
    induction l as [|r l IH]; intros J NL; [constructor|]. inversion NL; subst. cbn [map]. constructor; [|apply IH; [intros; apply J; right; assumption|assumption]].
    intros I. apply in_map_iff in I as (r' & E & I). assert (r' = r); [|congruence].
    transitivity (map (key_of cols r') cols); [symmetry; apply key_back; [exact NC|apply L, J; right; exact I]|].
    transitivity (map (key_of cols r) cols); [|apply key_back; [exact NC|apply L, J; left; reflexivity]].
    apply map_ext_in. intros c IC. apply S in IC. apply (In_nth _ _ "") in IC as (i & Li & Ei).
    assert (G : nth i (map (key_of cols r') cols') (key_of cols r' "") = nth i (map (key_of cols r) cols') (key_of cols r' "")) by (rewrite E; reflexivity).
    rewrite map_nth, Ei in G. rewrite (nth_indep _ _ (key_of cols r "")) in G by (rewrite map_length; exact Li). rewrite map_nth, Ei in G. exact G.
  - intros x I. apply in_map_iff in I as (r & <- & I). apply K. rewrite key_back; auto.
Qed.

(** ** Theorems *)

(** KeySets that can be turned into one another by the laws are equal: [==] says so, and they
    have the same keys. *)
Theorem C70_laws_hold : forall (W : world) (D : oracle) a b, accepted W D a -> accepted W D b -> equal_by_laws W D a b ->
  kcols a <> [] ->
  exists ka kb f f', eval W a = Ok ka /\ eval W b = Ok kb /\ ks_eq W ka kb = Ok true
    /\ ks_dataframe W ka = Ok f /\ ks_dataframe W kb = Ok f'
    /\ (forall c, In c (fcols f) <-> In c (fcols f')) /\ length (frows f) = length (frows f')
    /\ ks_size W ka = ks_size W kb
    /\ forall key, In (map key (fcols f)) (frows f) <-> In (map key (fcols f')) (frows f').
Proof.
  intros W D a b A B Q N. destruct (equal_sound W D a b Q A B) as (S1 & S2 & S3). destruct A as (UA & VA & CA), B as (UB & VB & CB).
  destruct (C13_equality_decides_partial W D a b UA UB VA VB CA CB N) as (ka & kb & v & EA & EB & EV & H).
  assert (v = true) as -> by (apply H; auto).
  assert (NB : kcols b <> []). { intros Z. destruct (kcols a) as [|c l] eqn:X; [contradiction|]. specialize (S1 c). rewrite Z in S1. apply S1. left. reflexivity. }
  destruct (C08_keyset_means_relational_algebra W D a ka UA EA CA N) as (f & FA & C1 & L1 & D1 & K1).
  destruct (C08_keyset_means_relational_algebra W D b kb UB EB CB NB) as (f' & FB & C2 & L2 & D2 & K2).
  exists ka, kb, f, f'. rewrite C1, C2. repeat (split; [assumption|]).
  destruct (eval_stands W D a UA ka EA) as ((_ & KA & _ & _ & NA) & PA & _), (eval_stands W D b UB kb EB) as ((_ & KB & _ & _ & NBB) & PB & _).
  assert (NC : NoDup (kcols a)) by (apply NA, PA, CA). assert (NC' : NoDup (kcols b)) by (apply NBB, PB, CB).
  assert (LE : length (frows f) = length (frows f')).
  { apply Nat.le_antisymm; [apply (rows_le (kcols a) (kcols b))|apply (rows_le (kcols b) (kcols a))]; try assumption; try (intros c; apply S1); intros key; rewrite K1, K2; apply S3. }
  split; [exact LE|]. split; [|intros key; rewrite K1, K2; apply S3].
  destruct (C11_size_counts_keys W D a ka UA EA CA) as (_ & Z1), (C11_size_counts_keys W D b kb UB EB CB) as (_ & Z2).
  destruct (Z1 N) as (g & G1 & _ & ->), (Z2 NB) as (g' & G2 & _ & ->). congruence.
Qed.
Print Assumptions C70_laws_hold.

(** Non-vacuity: two ways to write a KeySet. *)
Definition da : dict (list value) := [("a", [VInt 1; VInt 2; VInt 3])].
Definition db : dict (list value) := [("b", [VStr "x"; VStr "y"])].
Definition one : kexpr := ETuples [[VInt 1]] ["a"].
Definition first_way : kexpr := ESub (EDict (da ++ db)) one.
Definition other_way : kexpr := EMul (EDict db) (ESub (EDict da) one).
Example C70_case : accepted W0 D0 first_way /\ accepted W0 D0 other_way /\ equal_by_laws W0 D0 first_way other_way /\ kcols first_way <> [].
Proof.
  assert (VA : kvalid W0 (EDict da)).
  { split; [repeat constructor; cbn; tauto|]. split; [cbn; intuition discriminate|]. intros c vs [E|[]]. injection E as <- <-. exists INTEGER. split; [left; reflexivity|].
    split; [exists (VInt 1); cbn; auto|]. intros v [<-|[<-|[<-|[]]]]; right; reflexivity. }
  assert (VB : kvalid W0 (EDict db)).
  { split; [repeat constructor; cbn; tauto|]. split; [cbn; intuition discriminate|]. intros c vs [E|[]]. injection E as <- <-. exists VARCHAR. split; [right; right; reflexivity|].
    split; [exists (VStr "x"); cbn; auto|]. intros v [<-|[<-|[]]]; right; reflexivity. }
  assert (VAB : kvalid W0 (EDict (da ++ db))).
  { split; [repeat constructor; cbn; intuition discriminate|]. split; [cbn; intuition discriminate|]. intros c vs I. apply in_app_iff in I as [I|I]; [apply VA in I|apply VB in I]; exact I. }
  assert (VO : kvalid W0 one) by (apply tuples_valid with (t := INTEGER); [singles|discriminate|left; reflexivity|discriminate]).
  assert (S1 : forall c, In c ["a"] -> In c ["a"; "b"]) by (intros c [<-|[]]; left; reflexivity).
  assert (AP : apart (EDict da) (EDict db)) by (intros c [<-|[]] [E|[]]; discriminate E).
  assert (AO : accepted W0 D0 first_way) by (split; [split; [exact I|split; [exact I|discriminate]]|]; split; [split; [exact VAB|split; [exact VO|exact S1]]|reflexivity]).
  assert (SU : usable W0 D0 (ESub (EDict da) one)) by (split; [exact I|split; [exact I|discriminate]]).
  assert (SV : kvalid W0 (ESub (EDict da) one)) by (split; [exact VA|split; [exact VO|intros c H; exact H]]).
  split; [exact AO|]. split.
  { split; [split; [exact I|exact SU]|]. split; [|reflexivity]. split; [exact VB|]. split; [exact SV|]. intros c H H'. exact (AP c H' H). }
  split; [|discriminate].
  apply QTrans with (b := ESub (EMul (EDict da) (EDict db)) one).
  { split; [split; [split; exact I|split; [exact I|discriminate]]|]. split; [|reflexivity]. split; [split; [exact VA|split; [exact VB|exact AP]]|]. split; [exact VO|exact S1]. }
  { apply QSub; [apply QLaw, LDict|apply QRefl]. }
  apply QTrans with (b := EMul (ESub (EDict da) one) (EDict db)).
  { split; [split; [exact SU|exact I]|]. split; [|reflexivity]. split; [exact SV|]. split; [exact VB|]. exact AP. }
  { apply QLaw, LMulSub. intros c H. exact H. }
  apply QLaw, LMulComm.
Qed.
