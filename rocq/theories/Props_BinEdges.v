(** Properties C06 and C07 for the five kinds of edges Python code can pass, and C60: what
    it means for two specs to be equal.  Vocabulary: [covers] and [sorted_edges]
    (BinningProofs.v), [valid_edge] (BinEdgesProofs.v). *)
From Coq Require Import String Ascii Bool Arith ZArith QArith Lia FinFun List.
From Verif Require Import Prelude Budget BudgetProofs Binning BinningProofs BinEdges BinEdgesProofs.
Import ListNotations.
Local Open Scope string_scope.
Local Open Scope nat_scope.

Section Names.
(** Any column types; bin names are any type with strings in it. *)
Variables N T : Type.
Variable T_eqb : T -> T -> bool.
Hypothesis T_eqb_eq : forall a b, T_eqb a b = true <-> a = b.
Variable column_type : kind -> T.
Variable names_type : list (option N) -> res T.
Variable type_of : N -> T.
Variable embed : string -> N.
Hypothesis embed_inj : forall a b, embed a = embed b -> a = b.
(** get_element_type of a list of strings is str. *)
Variable string_type : T.
Hypothesis strings_typed : forall l, l <> [] -> names_type (map (fun x => Some (embed x)) l) = Ok string_type.
Variable printable : ascii -> bool.

Definition edge_type (l : list edge) : res T :=
  match edge_kind l with Ok k => Ok (column_type k) | Err e => Err e end.
Definition make := mk_spec edge N T edge_pyorder T_eqb edge_type names_type type_of
                     (default_names_of embed (edges_as_str printable)).

Lemma make_None edges rgt both nb s : make edges None rgt both nb = Ok s ->
  2 <= length edges /\ sorted_edges edge edge_pyorder edges /\ (exists k, edge_kind edges = Ok k)
  /\ exists es, edges_as_str printable edges = Ok es
     /\ names s = map (fun x => Some (embed x)) (default_bin_names es rgt both).
Proof.
  intros H. apply mk_spec_ok in H; [|assumption]. destruct H as (L & S & E & CN & _).
  split; [assumption|]. split; [assumption|]. split.
  - unfold edge_type in E. destruct (edge_kind edges); [eauto|discriminate].
  - cbn [chosen_names] in CN. unfold default_names_of in CN.
    destruct (edges_as_str printable edges) as [es|]; [|discriminate].
    cbn in CN. injection CN as CN. eauto.
Qed.

(** Default names never merge two bins, whatever the edges: strings may contain commas,
    quotes and brackets. *)
Theorem C06_default_names_always_distinct :
  forall edges rgt both nb s,
    (forall e, In e edges -> valid_edge e) ->
    make edges None rgt both nb = Ok s -> NoDup (names s).
Proof.
  intros edges rgt both nb s V H. destruct (make_None _ _ _ _ _ H) as (L & S & (k & K) & es & Es & ->).
  pose proof (edges_as_str_ok printable edges k L K S V) as G. rewrite Es in G. destruct G as (Ll & D & R).
  apply Injective_map_NoDup.
  - intros x y Q. apply embed_inj. congruence.
  - apply (default_bin_names_NoDup_gen (readable printable k)); auto.
    + intros. eapply readable_split; eauto.
    + lia.
Qed.

(** So two values are given the same default name exactly when one bin contains both. *)
Theorem C06_same_name_same_bin :
  forall edges rgt both nb s v w,
    (forall e, In e edges -> valid_edge e) ->
    make edges None rgt both nb = Ok s -> is_nan v = false -> is_nan w = false ->
    ((exists n, call edge N T edge_pyorder s (Some v) = Ok (Some n)
             /\ call edge N T edge_pyorder s (Some w) = Ok (Some n))
     <-> exists i, covers edge edge_pyorder edges rgt both i v /\ covers edge edge_pyorder edges rgt both i w).
Proof.
  intros edges rgt both nb s v w V H Nv Nw.
  pose proof (C06_default_names_always_distinct _ _ _ _ _ V H) as D.
  destruct (make_None _ _ _ _ _ H) as (L & S & (k & K) & es & Es & Hn).
  pose proof (edges_as_str_ok printable edges k L K S V) as G. rewrite Es in G. destruct G as (Ll & _ & _).
  assert (W : wf_spec edge N T edge_pyorder s).
  { assert (X : forall es', edges_as_str printable edges = Ok es' -> length es' = length edges)
      by (intros es' Hes; congruence).
    unfold make in H. exact (mk_spec_wf _ _ _ _ _ T_eqb_eq _ _ _ _ _ _ _ _ _ _ _ X H). }
  apply mk_spec_ok in H; [|assumption]. destruct H as (_ & _ & _ & _ & _ & _ & _ & BE & BR & BB & _).
  assert (some : forall i nm, nth_error (names s) i = Some nm -> exists n, nm = Some n).
  { intros i nm I. apply nth_error_In in I. rewrite Hn in I. apply in_map_iff in I as (x & <- & _). eauto. }
  assert (C : forall u, is_nan u = false ->
     (exists i n, covers edge edge_pyorder edges rgt both i u /\ nth_error (names s) i = Some (Some n)
        /\ call edge N T edge_pyorder s (Some u) = Ok (Some n))
     \/ ((forall i, ~ covers edge edge_pyorder edges rgt both i u)
         /\ call edge N T edge_pyorder s (Some u) = Ok None)).
  { intros u Nu. destruct (call_correct edge N T edge_pyorder s u W Nu) as [(i & nm & Hb & Hi & Hc)|[Hb Hc]];
      unfold bin_of in Hb; rewrite BE, BR, BB in Hb; [left|right; auto].
    destruct (some i nm Hi) as (n & ->). exists i, n. auto. }
  split.
  - intros (n & Cv & Cw).
    destruct (C v Nv) as [(i & a & Hi & Ni & Ci)|[_ Ci]]; [|congruence].
    destruct (C w Nw) as [(j & b & Hj & Nj & Cj)|[_ Cj]]; [|congruence].
    assert (i = j); [|subst; eauto].
    apply (proj1 (NoDup_nth_error (names s)) D); [apply nth_error_Some; congruence|]. congruence.
  - intros (i & Hv & Hw).
    destruct (C v Nv) as [(j & a & Hj & Nj & Cj)|[Cj _]]; [|exfalso; exact (Cj i Hv)].
    destruct (C w Nw) as [(l & b & Hl & Nl & Cl)|[Cl _]]; [|exfalso; exact (Cl i Hw)].
    assert (j = i) by (eapply covers_unique; eauto). assert (l = i) by (eapply covers_unique; eauto).
    subst. exists a. split; [assumption|]. congruence.
Qed.

(** Without names, construction succeeds exactly on two or more ascending edges of one
    kind, unless the edges are floats that no precision from 2 to 16 tells apart; the
    name of the NaN bin must be a string. *)
Theorem C07_default_names_always_found :
  forall edges rgt both nb,
    (forall e, In e edges -> valid_edge e) ->
    ((exists s, make edges None rgt both nb = Ok s) <->
     2 <= length edges
     /\ sorted_edges edge edge_pyorder edges
     /\ (exists k, forall e, In e edges -> kind_of e = k)
     /\ ((exists e, In e edges /\ kind_of e = KFloat) ->
         exists p, 2 <= p <= 16 /\ NoDup (map (fun e => float_str p (as_float e)) edges))
     /\ (forall b, nb = Some b -> type_of b = string_type)).
Proof.
  intros edges rgt both nb V. split.
  - intros (s & H). destruct (make_None _ _ _ _ _ H) as (L & S & (k & K) & es & Es & Hn).
    repeat (split; [assumption|]). split; [exists k; apply edge_kind_all; assumption|]. split.
    + intros (e & I & F). rewrite (edge_kind_all _ _ K _ I) in F. subst k.
      destruct edges as [|e0 r] eqn:Ee; [cbn in L; lia|].
      assert (K0 : kind_of e0 = KFloat) by (apply (edge_kind_all _ _ K); left; reflexivity).
      destruct e0; try discriminate. cbn [edges_as_str] in Es.
      destruct (edges_as_str_float_spec _ _ _ Es) as (ND & p & P2 & ->). eauto.
    + apply mk_spec_ok in H; [|assumption]. destruct H as (_ & _ & _ & _ & _ & NT & TB & _).
      pose proof (edges_as_str_ok printable edges k L K S V) as G. rewrite Es in G. destruct G as (Ll & _ & _).
      rewrite Hn, strings_typed in NT.
      * injection NT as NT. intros b B. rewrite (TB b B). auto.
      * intros Z. apply (f_equal (@length string)) in Z. rewrite default_bin_names_length in Z by lia. cbn in Z. lia.
  - intros (L & S & (k & K) & F & B).
    assert (K' : edge_kind edges = Ok k).
    { destruct edges as [|e r]; [cbn in L; lia|]. cbn [edge_kind].
      assert (A : forallb (fun x => kind_eqb (kind_of x) (kind_of e)) r = true).
      { apply forallb_forall. intros x X. rewrite (K x), (K e) by (cbn; auto). destruct k; reflexivity. }
      rewrite A, (K e) by (cbn; auto). reflexivity. }
    pose proof (edges_as_str_ok printable edges k L K' S V) as G.
    assert (X : exists es, edges_as_str printable edges = Ok es /\ length es = length edges).
    { destruct (edges_as_str printable edges) as [es|err] eqn:Es; [destruct G; eauto|].
      exfalso. destruct G as (-> & ->).
      destruct edges as [|e r] eqn:Ee; [cbn in L; lia|].
      destruct F as (p & P2 & ND); [exists e; split; [left; reflexivity|apply K; left; reflexivity]|].
      assert (K0 : kind_of e = KFloat) by (apply K; left; reflexivity). destruct e; try discriminate.
      cbn [edges_as_str] in Es. destruct (edges_as_str_float_complete (fun p e => float_str p (as_float e)) _ p P2 ND) as (es & E'). congruence. }
    destruct X as (es & Es & Ll).
    eexists {| bin_edges := edges; names := _; right := rgt; include_both := both; nan_bin := nb;
               input_type := column_type k; name_type := string_type |}.
    apply mk_spec_ok; [assumption|]. cbn [bin_edges names right include_both nan_bin input_type name_type].
    repeat (split; [assumption|]). split; [unfold edge_type; rewrite K'; reflexivity|].
    split; [cbn [chosen_names]; unfold default_names_of; rewrite Es; reflexivity|].
    split; [discriminate|]. split; [|auto].
    apply strings_typed. intros Z. apply (f_equal (@length string)) in Z.
    rewrite default_bin_names_length in Z by lia. cbn in Z. lia.
Qed.
End Names.
Print Assumptions C06_default_names_always_distinct.
Print Assumptions C06_same_name_same_bin.
Print Assumptions C07_default_names_always_found.

(** Float edges are written with two decimals, or with as many more as it takes. *)
Theorem C07_float_precision :
  forall (E : Type) (fmt : nat -> E -> string) edges,
  match edges_as_str_float fmt edges with
  | Ok l => exists p, 2 <= p <= 16 /\ l = map (fmt p) edges /\ NoDup l
              /\ forall p', 2 <= p' < p -> ~ NoDup (map (fmt p') edges)
  | Err e => e = RuntimeError /\ forall p, 2 <= p <= 16 -> ~ NoDup (map (fmt p) edges)
  end.
Proof. intros. apply float_precision. Qed.
Print Assumptions C07_float_precision.

(** Datetimes are written with the coarsest timespec that loses nothing. *)
Theorem C06_datetimes_written_exactly :
  forall l a b, In a l -> In b l -> kind_of a = KTime -> kind_of b = KTime ->
    valid_edge a -> valid_edge b ->
    (time_str (timespec_of l) a = time_str (timespec_of l) b -> a = b)
    /\ (timespec_of l = Microseconds -> exists e, In e l /\ (us_of e mod 1000 <> 0)%Z)
    /\ (timespec_of l = Milliseconds -> exists e, In e l /\ us_of e <> 0%Z)
    /\ (timespec_of l = Seconds -> exists e, In e l /\ s_of e <> 0%Z).
Proof.
  intros l a b Ia Ib Ka Kb Va Vb. split.
  - apply time_str_inj; auto using timespec_shows.
  - unfold timespec_of.
    destruct (existsb (fun e => negb (us_of e mod 1000 =? 0)%Z) l) eqn:A;
      [|destruct (existsb (fun e => negb (us_of e =? 0)%Z) l) eqn:B;
        [|destruct (existsb (fun e => negb (s_of e =? 0)%Z) l) eqn:C]];
      repeat split; try discriminate; intros _.
    + apply existsb_exists in A as (e & I & H). exists e. split; [assumption|]. apply negb_true_iff, Z.eqb_neq in H. exact H.
    + apply existsb_exists in B as (e & I & H). exists e. split; [assumption|]. apply negb_true_iff, Z.eqb_neq in H. exact H.
    + apply existsb_exists in C as (e & I & H). exists e. split; [assumption|]. apply negb_true_iff, Z.eqb_neq in H. exact H.
Qed.
Print Assumptions C06_datetimes_written_exactly.

(** A quoted string can be read back: nothing that follows it can be taken for a part of it. *)
Theorem C06_strings_written_exactly :
  forall printable s s' x y, repr printable s ++ x = repr printable s' ++ y -> s = s' /\ x = y.
Proof. apply repr_split. Qed.
Print Assumptions C06_strings_written_exactly.

(** ** Concrete cases *)
Definition str_spec (l : list edge) rgt both nb :=
  make string kind kind_eqb (fun k => k) (fun _ => Ok KStr) (fun _ => KStr) (fun s => s) (fun _ => true) l None rgt both nb.
Definition dq : string := String dquote EmptyString.
Definition bs : string := String backslash EmptyString.
Definition lf : string := String "010"%char EmptyString.
Example C06_tricky_strings :
  exists s, str_spec [EStr "a"; EStr "a', 'b"; EStr ("b" ++ dq); EStr ("b'" ++ dq ++ lf)] true false None = Ok s
  /\ names s = [Some "('a', ""a', 'b""]"; Some "(""a', 'b"", 'b""']"; Some "('b""', 'b\'""\n']"].
Proof. eexists. split; vm_compute; reflexivity. Qed.
Example C06_datetimes :
  exists s, str_spec [ETime 2024 1 31 9 5 0 0; ETime 2024 2 1 0 0 0 0; ETime 2024 2 1 0 0 30 500000] false true (Some "none") = Ok s
  /\ names s = [Some "[2024-01-31 09:05:00.000, 2024-02-01 00:00:00.000)";
                Some "[2024-02-01 00:00:00.000, 2024-02-01 00:00:30.500]"]
  /\ call _ _ _ edge_pyorder s (Some (ETime 2024 2 1 0 0 30 500000))
     = Ok (Some "[2024-02-01 00:00:00.000, 2024-02-01 00:00:30.500]").
Proof. eexists. repeat split; vm_compute; reflexivity. Qed.
Definition flt_edge (q : Q) : edge := EFloat (FX (XFin q)).
Example C07_floats_and_ints :
  (exists s, str_spec [EFloat (FX (XFin (-1#1000))); EFloat (FX (XFin 0)); EFloat (FX XPInf)] true true None = Ok s
     /\ names s = [Some "[-0.00, 0.00]"; Some "(0.00, inf]"])
  /\ (exists s, str_spec [EInt (-5); EInt 0; EInt 12] true true None = Ok s
     /\ names s = [Some "[-5, 0]"; Some "(0, 12]"])
  /\ str_spec [EInt 0; EFloat (FX (XFin (1#2)))] true true None = Err ValueError
  /\ str_spec [flt_edge 0; flt_edge (1 # 10 ^ 18)] true true None = Err RuntimeError.
Proof. split; [|split; [|split]]; try (eexists; split; vm_compute; reflexivity); vm_compute; reflexivity. Qed.

(** ** C60: equality of specs *)
Section Equality.
(** Any edges E with Python's comparison laws, any names N with any ==, any other objects O. *)
Variables E N T O : Type.
Variable P : pyorder E.
Variable N_eqb : N -> N -> bool.
Variable T_eqb : T -> T -> bool.
Hypothesis T_eqb_eq : forall a b, T_eqb a b = true <-> a = b.
Variable et : list E -> res T.
Variable nt : list (option N) -> res T.
Variable type_of : N -> T.
Variable embed : string -> N.
Variable eas : list E -> res (list string).
Hypothesis eas_length : forall l es, eas l = Ok es -> length es = length l.
Definition constructed (s : spec E N T) : Prop :=
  exists edges nms rgt both nb,
    mk_spec E N T P T_eqb et nt type_of (default_names_of embed eas) edges nms rgt both nb = Ok s.
Notation eqs := (spec_eq E N T O P N_eqb).
Definition same_name (a b : option N) : Prop := option_eqb N_eqb a b = true.

(** Two specs are equal when their edges, names, flags and NaN bins are. *)
Theorem C60_equality_compares :
  forall s s', eqs s (ASpec s') = Ok true <->
    Forall2 (fun a b => po_eq P a b = true) (bin_edges s) (bin_edges s')
    /\ Forall2 same_name (names s) (names s')
    /\ right s = right s' /\ include_both s = include_both s' /\ same_name (nan_bin s) (nan_bin s').
Proof.
  intros s s'.
  assert (G : forall A (f : A -> A -> bool) l l', list_eqb f l l' = true <-> Forall2 (fun a b => f a b = true) l l').
  { intros A f. induction l as [|a l IH]; intros [|b l']; cbn [list_eqb].
    - split; auto.
    - split; [discriminate|]. intros H; inversion H.
    - split; [discriminate|]. intros H; inversion H.
    - rewrite andb_true_iff, IH. split; [intros []; constructor; assumption|]. intros H; inversion H; subst; auto. }
  cbn [spec_eq]. unfold tuple_eq, same_name.
  transitivity (list_eqb (po_eq P) (bin_edges s) (bin_edges s') && list_eqb (option_eqb N_eqb) (names s) (names s')
     && Bool.eqb (right s) (right s') && Bool.eqb (include_both s) (include_both s')
     && option_eqb N_eqb (nan_bin s) (nan_bin s') = true).
  - split; [intros H; injection H as H; exact H|intros ->; reflexivity].
  - rewrite !andb_true_iff, !G, !Bool.eqb_true_iff. tauto.
Qed.

(** Comparing with anything that is not a spec raises. *)
Theorem C60_other_objects_refused : forall s o, eqs s (AnotherObject o) = Err TypeError.
Proof. reflexivity. Qed.

(** Equal specs put every value into bins with equal names: None, NaN, values outside
    all bins and values on edges included.  Missing: that they bin columns of the same type
    into columns of the same type, which is false ([C60_equal_specs_same_types_refuted]). *)
Theorem C60_equal_specs_bin_alike_partial :
  forall s s', constructed s -> constructed s' -> eqs s (ASpec s') = Ok true ->
  forall v, exists a b, call E N T P s v = Ok a /\ call E N T P s' v = Ok b /\ same_name a b.
Proof.
  intros s s' (l & n & r & b & nb & C) (l' & n' & r' & b' & nb' & C') H v.
  pose proof (mk_spec_wf _ _ _ _ _ T_eqb_eq _ _ _ _ _ _ _ _ _ _ _ (eas_length l) C) as W.
  pose proof (mk_spec_wf _ _ _ _ _ T_eqb_eq _ _ _ _ _ _ _ _ _ _ _ (eas_length l') C') as W'.
  apply C60_equality_compares in H as (FE & FN & R & B & NB).
  destruct v as [v|]; [|exists None, None; repeat split; reflexivity].
  destruct (po_nan P v) eqn:Nv.
  { exists (nan_bin s), (nan_bin s'). unfold call. rewrite Nv. auto. }
  assert (LE : length (bin_edges s) = length (bin_edges s')) by (clear -FE; induction FE; cbn; congruence).
  assert (nthE : forall i a, nth_error (bin_edges s) i = Some a ->
     exists a', nth_error (bin_edges s') i = Some a' /\ po_eq P a a' = true).
  { clear -FE. induction FE as [|x y l l' H F IH]; intros [|i] a; cbn; try discriminate; eauto.
    intros K; injection K as <-. eauto. }
  assert (nthE' : forall i a, nth_error (bin_edges s') i = Some a ->
     exists a', nth_error (bin_edges s) i = Some a' /\ po_eq P a a' = true).
  { clear -FE. induction FE as [|x y l l' H F IH]; intros [|i] a; cbn; try discriminate; eauto.
    intros K; injection K as <-. exists x. split; [reflexivity|]. apply po_eq_sym, H. }
  assert (eqtrans : forall a b c, po_eq P a b = true -> po_eq P b c = true -> po_eq P a c = true).
  { intros x y z X Y.
    assert (Nx : po_nan P x = false) by (destruct (po_nan P x) eqn:K; [apply (po_nan_l E P x y) in K as [_ K]; congruence|auto]).
    assert (Nz : po_nan P z = false) by (destruct (po_nan P z) eqn:K; [apply (po_nan_r E P y z) in K as [_ K]; congruence|auto]).
    destruct (po_tri E P x z Nx Nz) as [K|[K|K]]; [|assumption|].
    - rewrite (po_eq_lt_l E P x y z X) in K. rewrite (po_eq_not_lt E P y z Y) in K. discriminate.
    - rewrite (po_eq_lt_r E P x y z X) in K. rewrite (po_eq_not_gt E P y z Y) in K. discriminate. }
  assert (cov : forall i, bin_of E N T P s i v <-> bin_of E N T P s' i v).
  { intros i. unfold bin_of, covers. rewrite R, B, LE. split.
    - intros (x & y & X & Y & K). destruct (nthE _ _ X) as (x' & X' & EX). destruct (nthE _ _ Y) as (y' & Y' & EY).
      exists x', y'. split; [assumption|]. split; [assumption|].
      rewrite <- (po_eq_lt_l E P x x' v EX), <- (po_eq_lt_r E P y y' v EY).
      destruct (right s'); intuition eauto.
    - intros (x & y & X & Y & K). destruct (nthE' _ _ X) as (x' & X' & EX). destruct (nthE' _ _ Y) as (y' & Y' & EY).
      exists x', y'. split; [assumption|]. split; [assumption|].
      rewrite <- (po_eq_lt_l E P x x' v EX), <- (po_eq_lt_r E P y y' v EY).
      destruct (right s'); intuition eauto. }
  destruct (call_correct E N T P s v W Nv) as [(i & nm & Hb & Hi & Hc)|[Hb Hc]];
    destruct (call_correct E N T P s' v W' Nv) as [(j & nm' & Hb' & Hj & Hc')|[Hb' Hc']].
  - assert (i = j).
    { apply cov in Hb. unfold bin_of in Hb, Hb'. destruct W' as (_ & S & _). eapply covers_unique; eauto. }
    subst j. exists nm, nm'. split; [assumption|]. split; [assumption|].
    clear -FN Hi Hj. revert i Hi Hj. induction FN as [|x y l l' H F IH]; intros [|i]; cbn; try discriminate; eauto.
    intros K K'; injection K as <-; injection K' as <-. exact H.
  - exfalso. apply cov in Hb. exact (Hb' _ Hb).
  - exfalso. apply cov in Hb'. exact (Hb _ Hb').
  - exists None, None. split; [assumption|]. split; [assumption|reflexivity].
Qed.

(** == is an equivalence on specs, provided it is one on names. *)
Theorem C60_equality_is_an_equivalence :
  (forall a, N_eqb a a = true) -> (forall a b, N_eqb a b = true -> N_eqb b a = true) ->
  (forall a b c, N_eqb a b = true -> N_eqb b c = true -> N_eqb a c = true) ->
  (forall s, constructed s -> eqs s (ASpec s) = Ok true)
  /\ (forall s s', eqs s (ASpec s') = Ok true -> eqs s' (ASpec s) = Ok true)
  /\ (forall s1 s2 s3, eqs s1 (ASpec s2) = Ok true -> eqs s2 (ASpec s3) = Ok true -> eqs s1 (ASpec s3) = Ok true).
Proof.
  intros Nr Ns Nt.
  assert (Or : forall a, same_name a a) by (intros [a|]; unfold same_name; cbn; auto).
  assert (Os : forall a b, same_name a b -> same_name b a) by (intros [a|] [b|]; unfold same_name; cbn; auto).
  assert (Ot : forall a b c, same_name a b -> same_name b c -> same_name a c)
    by (intros [a|] [b|] [c|]; unfold same_name; cbn; eauto; discriminate).
  assert (Fr : forall A (R : A -> A -> Prop) l, (forall x, In x l -> R x x) -> Forall2 R l l).
  { intros A R. induction l as [|x l IH]; intros H; constructor; [apply H; left; reflexivity|].
    apply IH. intros y Y. apply H. right. assumption. }
  assert (Fs : forall A (R : A -> A -> Prop) l l', (forall x y, R x y -> R y x) -> Forall2 R l l' -> Forall2 R l' l)
    by (intros A R l l' H F; induction F; constructor; auto).
  assert (Ft : forall A (R : A -> A -> Prop) l1 l2 l3, (forall x y z, R x y -> R y z -> R x z) ->
     Forall2 R l1 l2 -> Forall2 R l2 l3 -> Forall2 R l1 l3).
  { intros A R l1 l2 l3 H F. revert l3. induction F; intros l3 G; inversion G; subst; constructor; eauto. }
  split; [|split].
  - intros s (l & n & r & b & nb & C). apply C60_equality_compares. split; [|repeat split; auto].
    apply mk_spec_ok in C; [|assumption]. destruct C as (L & S & _ & _ & _ & _ & _ & BE & _). rewrite BE.
    apply Fr. intros x X. apply In_nth_error in X as (i & X).
    assert (Nx : po_nan P x = false).
    { destruct i as [|i].
      - destruct (nth_error l 1) as [y|] eqn:Y; [|apply nth_error_None in Y; lia].
        apply (po_not_nan_lt E P x y). apply (S 0 1); auto.
      - destruct (nth_error l 0) as [y|] eqn:Y; [|apply nth_error_None in Y; lia].
        apply (po_not_nan_lt E P y x). apply (S 0 (Datatypes.S i)); auto. lia. }
    destruct (po_tri E P x x Nx Nx) as [K|[K|K]]; [|assumption|]; rewrite po_irrefl in K; discriminate.
  - intros s s' H. apply C60_equality_compares in H as (FE & FN & R & B & NB). apply C60_equality_compares.
    repeat split; auto. apply Fs; [|assumption]. intros x y. apply po_eq_sym.
  - intros s1 s2 s3 H G. apply C60_equality_compares in H as (FE & FN & R & B & NB).
    apply C60_equality_compares in G as (FE' & FN' & R' & B' & NB'). apply C60_equality_compares.
    repeat split; try congruence; [|eapply Ft; eauto|eapply Ot; eauto].
    eapply Ft; [|exact FE|exact FE']. intros x y z X Y.
    assert (Nx : po_nan P x = false) by (destruct (po_nan P x) eqn:K; [apply (po_nan_l E P x y) in K as [_ K]; congruence|auto]).
    assert (Nz : po_nan P z = false) by (destruct (po_nan P z) eqn:K; [apply (po_nan_r E P y z) in K as [_ K]; congruence|auto]).
    destruct (po_tri E P x z Nx Nz) as [K|[K|K]]; [|assumption|].
    + rewrite (po_eq_lt_l E P x y z X) in K. rewrite (po_eq_not_lt E P y z Y) in K. discriminate.
    + rewrite (po_eq_lt_r E P x y z X) in K. rewrite (po_eq_not_gt E P y z Y) in K. discriminate.
Qed.

(** Equal specs have equal hashes, as Python requires of keys. *)
Theorem C60_equal_specs_hash_alike :
  forall tuple_hash (hash_E : E -> Z) (hash_N : option N -> Z),
  (forall a b, po_eq P a b = true -> hash_E a = hash_E b) ->
  (forall a b, same_name a b -> hash_N a = hash_N b) ->
  forall s s', eqs s (ASpec s') = Ok true ->
    spec_hash E N T tuple_hash hash_E hash_N s = spec_hash E N T tuple_hash hash_E hash_N s'.
Proof.
  intros th hE hN HE HN s s' H. apply C60_equality_compares in H as (FE & FN & R & B & NB).
  unfold spec_hash. rewrite R, B, (HN _ _ NB). f_equal.
  - clear -FE HE. induction FE; cbn; [reflexivity|]. f_equal; auto.
  - clear -FN HN. induction FN; cbn; [reflexivity|]. f_equal; auto.
Qed.
End Equality.
Print Assumptions C60_equality_compares.
Print Assumptions C60_other_objects_refused.
Print Assumptions C60_equal_specs_bin_alike_partial.
Print Assumptions C60_equality_is_an_equivalence.
Print Assumptions C60_equal_specs_hash_alike.

(** Equal specs may nevertheless produce columns of different types: 1 == 1.0 in Python, so
    a spec with edges 0, 5 and name 1 equals a spec with edges 0.0, 5.0 and name 1.0, but one
    bins INTEGER columns into an INTEGER column and the other DECIMAL ones into a DECIMAL one. *)
Definition any_names : list (option edge) -> res kind := fun l =>
  edge_kind (flat_map (fun o => match o with Some e => [e] | None => [] end) l).
Definition named (l : list edge) (n : list (option edge)) :=
  mk_spec edge edge kind edge_pyorder kind_eqb edge_kind any_names kind_of
    (default_names_of EStr (edges_as_str (fun _ => true))) l (Some n) true true None.
Theorem C60_equal_specs_same_types_refuted :
  exists s s', named [EInt 0; EInt 5] [Some (EInt 1)] = Ok s
    /\ named [flt_edge 0; flt_edge 5] [Some (flt_edge 1)] = Ok s'
    /\ spec_eq edge edge kind unit edge_pyorder edge_eq s (ASpec s') = Ok true
    /\ input_type s <> input_type s' /\ name_type s <> name_type s'.
Proof. do 2 eexists. repeat split; try (vm_compute; reflexivity); vm_compute; discriminate. Qed.
Print Assumptions C60_equal_specs_same_types_refuted.

Example C60_case :
  exists s s', named [EInt 0; EInt 5; EInt 9] [Some (EStr "lo"); Some (EStr "hi")] = Ok s
    /\ named [EInt 0; EInt 5; EInt 8] [Some (EStr "lo"); Some (EStr "hi")] = Ok s'
    /\ spec_eq edge edge kind unit edge_pyorder edge_eq s (ASpec s) = Ok true
    /\ spec_eq edge edge kind unit edge_pyorder edge_eq s (ASpec s') = Ok false
    /\ call _ _ _ edge_pyorder s (Some (EInt 9)) = Ok (Some (EStr "hi"))
    /\ call _ _ _ edge_pyorder s' (Some (EInt 9)) = Ok None.
Proof. do 2 eexists. repeat split; vm_compute; reflexivity. Qed.
