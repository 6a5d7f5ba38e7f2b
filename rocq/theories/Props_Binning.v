(** Properties C05-C07: binning.  Specification vocabulary (BinningProofs.v):
    [covers] (bin i contains v), [sorted_edges] (strictly ascending). *)
From Coq Require Import String Bool Arith ZArith Lia FinFun List.
From Verif Require Import Prelude Binning BinningProofs.
Import ListNotations.

Section Props.
(** Any edge type E with Python comparison laws P, any type N of bin names with a
    decidable equality, any column types T; tmlt.core's element-type functions, the
    formatting of edges as strings ([eas], one string per edge) are arbitrary. *)
Variables E N T : Type.
Variable P : pyorder E.
Variable N_eqb : N -> N -> bool.
Hypothesis N_eqb_eq : forall a b, N_eqb a b = true <-> a = b.
Variable T_eqb : T -> T -> bool.
Hypothesis T_eqb_eq : forall a b, T_eqb a b = true <-> a = b.
Variable edge_type : list E -> res T.
Variable names_type : list (option N) -> res T.
Variable type_of : N -> T.
Variable embed : string -> N.
Variable eas : list E -> res (list string).
Hypothesis eas_length : forall l es, eas l = Ok es -> length es = length l.

Definition construct := mk_spec E N T P T_eqb edge_type names_type type_of (default_names_of embed eas).

(** ** C05 *)
Theorem C05_binning_correct :
  forall edges nms rgt both nb s, construct edges nms rgt both nb = Ok s ->
  forall v, po_nan P v = false ->
    (exists i nm, covers E P edges rgt both i v
        /\ (forall j, covers E P edges rgt both j v -> j = i)
        /\ nth_error (names s) i = Some nm
        /\ call E N T P s (Some v) = Ok nm)
    \/ ((forall i, ~ covers E P edges rgt both i v) /\ call E N T P s (Some v) = Ok None).
Proof.
  intros edges nms rgt both nb s H v Nv.
  pose proof (mk_spec_wf _ _ _ _ _ T_eqb_eq _ _ _ _ _ _ _ _ _ _ _ (eas_length edges) H) as W.
  apply mk_spec_ok in H; [|assumption].
  destruct H as (L & S & _ & _ & _ & _ & _ & BE & BR & BB & _).
  destruct (call_correct E N T P s v W Nv) as [(i & nm & Hb & Hn & Hc)|[Hb Hc]];
    unfold bin_of in Hb; rewrite BE, BR, BB in Hb.
  - left. exists i, nm. repeat split; auto.
    intros j Hj. exact (covers_unique E P edges rgt both j i v S Hj Hb).
  - right. auto.
Qed.

Theorem C05_null_and_nan :
  forall edges nms rgt both nb s, construct edges nms rgt both nb = Ok s ->
    call E N T P s None = Ok None
    /\ forall v, po_nan P v = true -> call E N T P s (Some v) = Ok nb.
Proof.
  intros edges nms rgt both nb s H. apply mk_spec_ok in H; [|assumption].
  destruct H as (_ & _ & _ & _ & _ & _ & _ & _ & _ & _ & BN).
  split; [reflexivity|]. intros v Nv. unfold call. rewrite Nv, BN. reflexivity.
Qed.

(** The default name of a bin shows its two edges and which ends it contains. *)
Theorem C05_default_names_show_interval :
  forall edges es rgt both nb s i a b,
    eas edges = Ok es -> construct edges None rgt both nb = Ok s ->
    nth_error es i = Some a -> nth_error es (S i) = Some b ->
    nth_error (names s) i = Some (Some (embed (
      ((if negb rgt || (both && (i =? 0)%nat) then "[" else "(")
       ++ a ++ ", " ++ b ++
       (if rgt || (both && (S (S i) =? length edges)%nat) then "]" else ")"))%string))).
Proof.
  intros edges es rgt both nb s i a b He H Ha Hb.
  apply mk_spec_ok in H; [|assumption]. destruct H as (_ & _ & _ & CN & _).
  simpl in CN. unfold default_names_of in CN. rewrite He in CN. simpl in CN. inversion CN; subst.
  rewrite (map_nth_error _ _ _ (default_bin_names_nth es rgt both i a b Ha Hb)).
  rewrite (eas_length edges es He).
  destruct rgt, both; cbn [negb orb andb]; try reflexivity.
  - destruct (i =? 0); reflexivity.
  - destruct (S (S i) =? length edges); reflexivity.
Qed.

(** The binned column's descriptor admits everything binning returns. *)
Theorem C05_column_descriptor_sound :
  forall edges nms rgt both nb s (n_nan n_inf : N -> bool) v nm,
    construct edges nms rgt both nb = Ok s -> call E N T P s v = Ok nm ->
    let '(allow_null, allow_nan, allow_inf) := column_descriptor N n_nan n_inf (names s) (nan_bin s) in
    (nm = None -> allow_null = true)
    /\ (forall n, nm = Some n -> n_nan n = true -> allow_nan = true)
    /\ (forall n, nm = Some n -> n_inf n = true -> allow_inf = true).
Proof.
  intros edges nms rgt both nb s n_nan n_inf v nm H.
  exact (column_descriptor_sound E N T P s n_nan n_inf v nm
          (mk_spec_wf _ _ _ _ _ T_eqb_eq _ _ _ _ _ _ _ _ _ _ _ (eas_length edges) H)).
Qed.

(** ** C06 *)
Theorem C06_bins_cover_outputs :
  forall edges nms rgt both nb s, construct edges nms rgt both nb = Ok s ->
  forall v nm, call E N T P s v = Ok nm ->
    In nm (bins E N T N_eqb s true) /\ (nm <> None -> In nm (bins E N T N_eqb s false)).
Proof.
  intros edges nms rgt both nb s H v nm Hc.
  pose proof (mk_spec_wf _ _ _ _ _ T_eqb_eq _ _ _ _ _ _ _ _ _ _ _ (eas_length edges) H) as W.
  split.
  - exact (bins_complete E N T P N_eqb N_eqb_eq s v nm W Hc).
  - destruct nm as [n|]; [intros _|congruence].
    exact (bins_complete_nonnull E N T P N_eqb N_eqb_eq s v n W Hc).
Qed.

(** Nothing else is listed, no name twice, and distinct names stay in edge order. *)
Theorem C06_bins_exact :
  forall edges nms rgt both nb s, construct edges nms rgt both nb = Ok s ->
    (forall nl nm, In nm (bins E N T N_eqb s nl) <->
       In nm (names s) \/ (nb <> None /\ nm = nb) \/ (nl = true /\ nm = None))
    /\ (forall nl, NoDup (bins E N T N_eqb s nl))
    /\ (NoDup (names s) -> exists tl, bins E N T N_eqb s false = names s ++ tl).
Proof.
  intros edges nms rgt both nb s H. apply mk_spec_ok in H; [|assumption].
  destruct H as (_ & _ & _ & _ & _ & _ & _ & _ & _ & _ & BN).
  split; [|split].
  - intros nl nm. rewrite <- BN. split.
    + apply (bins_sound E N T N_eqb N_eqb_eq s nl nm).
    + intros K. unfold bins, fromkeys.
      apply (dedup_aux_In _ (option_eqb_eq N_eqb N_eqb_eq)). split; [|simpl; tauto].
      destruct (nan_bin s); destruct nl; rewrite ?in_app_iff; simpl; intuition congruence.
  - apply (bins_NoDup E N T N_eqb N_eqb_eq s).
  - apply (bins_ordered E N T N_eqb N_eqb_eq s).
Qed.

(** Default names never merge two bins when the edges are written without commas. *)
Theorem C06_default_names_distinct :
  forall edges es rgt both nb s,
    (forall a b, embed a = embed b -> a = b) ->
    eas edges = Ok es -> NoDup es -> (forall a, In a es -> no_comma a) ->
    construct edges None rgt both nb = Ok s -> NoDup (names s).
Proof.
  intros edges es rgt both nb s Inj He ND NC H.
  apply mk_spec_ok in H; [|assumption]. destruct H as (L & _ & _ & CN & _).
  simpl in CN. unfold default_names_of in CN. rewrite He in CN. simpl in CN. inversion CN; subst.
  apply Injective_map_NoDup.
  - intros x y Q. apply Inj. congruence.
  - apply default_bin_names_NoDup; auto. rewrite (eas_length edges es He). assumption.
Qed.

(** ** C07 *)
(** With explicit names, construction succeeds exactly on well-formed arguments. *)
Theorem C07_accepts_exactly_wellformed :
  forall edges l rgt both nb,
    (exists s, construct edges (Some l) rgt both nb = Ok s) <->
    2 <= length edges /\ sorted_edges E P edges /\ (exists t, edge_type edges = Ok t)
    /\ S (length l) = length edges
    /\ (exists t, names_type l = Ok t /\ forall b, nb = Some b -> type_of b = t).
Proof.
  intros edges l rgt both nb. split.
  - intros (s & H). apply mk_spec_ok in H; [|assumption].
    destruct H as (L & S & ET & CN & LN & NT & TB & _). simpl in CN. inversion CN; subst.
    split; [assumption|]. split; [assumption|]. split; [eauto|].
    split; [rewrite (LN _ eq_refl); lia|]. eauto.
  - intros (L & S & (t & ET) & LN & (t' & NT & TB)).
    exists {| bin_edges := edges; names := l; right := rgt; include_both := both;
              nan_bin := nb; input_type := t; name_type := t' |}.
    apply mk_spec_ok; [assumption|]. simpl. repeat split; auto.
    intros l' Q; inversion Q; subst. lia.
Qed.

(** Without names it additionally needs the edges to be formattable. *)
Theorem C07_accepts_default_names :
  forall edges rgt both nb,
    (exists s, construct edges None rgt both nb = Ok s) <->
    2 <= length edges /\ sorted_edges E P edges /\ (exists t, edge_type edges = Ok t)
    /\ exists es t, eas edges = Ok es
         /\ names_type (map (fun x => Some (embed x)) (default_bin_names es rgt both)) = Ok t
         /\ forall b, nb = Some b -> type_of b = t.
Proof.
  intros edges rgt both nb. split.
  - intros (s & H). apply mk_spec_ok in H; [|assumption].
    destruct H as (L & S & ET & CN & LN & NT & TB & _). simpl in CN.
    unfold default_names_of in CN. destruct (eas edges) as [es|e]; [|discriminate].
    simpl in CN. inversion CN as [Q]. rewrite <- Q in NT. eauto 10.
  - intros (L & S & (t & ET) & es & t' & He & NT & TB).
    exists {| bin_edges := edges; names := map (fun x => Some (embed x)) (default_bin_names es rgt both);
              right := rgt; include_both := both;
              nan_bin := nb; input_type := t; name_type := t' |}.
    apply mk_spec_ok; [assumption|]. unfold chosen_names, default_names_of. rewrite He. simpl.
    repeat split; auto. discriminate.
Qed.

(** Bad arguments are refused with a ValueError, unless edges cannot be formatted. *)
Theorem C07_refuses_with_value_error :
  forall edges nms rgt both nb e, construct edges nms rgt both nb = Err e ->
    e = ValueError \/ (nms = None /\ eas edges = Err e).
Proof.
  intros edges nms rgt both nb e. unfold construct, mk_spec.
  destruct (Nat.pred (length edges) <? 1); simpl; [intros H; inversion H; auto|].
  destruct (edge_type edges); simpl; [|intros H; inversion H; auto].
  destruct (negb (ascending E P edges)); simpl; [intros H; inversion H; auto|].
  assert (G : forall nm : list (option N),
     (let* nt := match names_type nm with Ok t => Ok t | Err _ => Err ValueError end in
      let* _ := raise_if (match nb with Some b => negb (T_eqb (type_of b) nt) | None => false end) ValueError in
      Ok {| bin_edges := edges; names := nm; right := rgt; include_both := both;
            nan_bin := nb; input_type := a; name_type := nt |}) = Err e -> e = ValueError).
  { intros nm. destruct (names_type nm); simpl; [|intros H; inversion H; auto].
    destruct (match nb with Some b => negb (T_eqb (type_of b) a0) | None => false end); simpl;
      intros H; inversion H; auto. }
  destruct nms as [l|].
  - destruct (length l =? Nat.pred (length edges)); simpl; [|intros H; inversion H; auto].
    intros H; left; eapply G; eassumption.
  - unfold default_names_of at 1. destruct (eas edges) as [es|e']; simpl.
    + intros H; left; eapply G; eassumption.
    + intros H; inversion H; auto.
Qed.

End Props.
Print Assumptions C05_binning_correct.
Print Assumptions C05_null_and_nan.
Print Assumptions C05_default_names_show_interval.
Print Assumptions C05_column_descriptor_sound.
Print Assumptions C06_bins_cover_outputs.
Print Assumptions C06_bins_exact.
Print Assumptions C06_default_names_distinct.
Print Assumptions C07_accepts_exactly_wellformed.
Print Assumptions C07_accepts_default_names.
Print Assumptions C07_refuses_with_value_error.

(** Float edges that agree to 16 decimals: well-formed, yet refused with a
    RuntimeError when no names are given.  Here edges are multiples of 1e-20. *)
Theorem C07_close_float_edges_refuted :
  exists edges : list Z,
    2 <= length edges /\ sorted_edges Z Z_pyorder edges
    /\ mk_spec Z string nat Z_pyorder Nat.eqb (fun _ => Ok 0) (fun _ => Ok 1) (fun _ => 1)
         (default_names_of (fun s => s) (edges_as_str_float fmt20)) edges None true true None
       = Err RuntimeError.
Proof.
  exists [0%Z; 1%Z]. split; [simpl; lia|]. split; [|vm_compute; reflexivity].
  apply ascending_sorted. reflexivity.
Qed.
Print Assumptions C07_close_float_edges_refuted.

(** When float edges are formatted, the strings are distinct. *)
Theorem C07_float_edges_formatted_distinct :
  forall (E : Type) (fmt : nat -> E -> string) edges l,
    edges_as_str_float fmt edges = Ok l ->
    NoDup l /\ exists p, 2 <= p <= 16 /\ l = map (fmt p) edges.
Proof. intros E. exact (@edges_as_str_float_spec E). Qed.
Print Assumptions C07_float_edges_formatted_distinct.

(** ** Concrete cases: float edges 0, 5, 10, 15 with a repeated name and a NaN bin. *)
Local Open Scope Z_scope.
Definition ex_spec :=
  construct (option Z) string nat nanZ_pyorder Nat.eqb (fun _ => Ok 0%nat) (fun _ => Ok 1%nat) (fun _ => 1%nat)
    (fun s => s) (fun l => Ok (map (fun _ => "x"%string) l))
    [Some 0; Some 5; Some 10; Some 15] (Some [Some "lo"; Some "mid"; Some "lo"]%string) true true
    (Some "nan"%string).
Example C05_example :
  exists s, ex_spec = Ok s /\
    map (call _ _ _ nanZ_pyorder s) [None; Some None; Some (Some (-1)); Some (Some 0); Some (Some 5);
                                     Some (Some 6); Some (Some 15); Some (Some 16)]
    = [Ok None; Ok (Some "nan"); Ok None; Ok (Some "lo"); Ok (Some "lo"); Ok (Some "mid");
       Ok (Some "lo"); Ok None]%string
    /\ covers _ nanZ_pyorder [Some 0; Some 5; Some 10; Some 15] true true 1 (Some 6).
Proof.
  eexists. split; [vm_compute; reflexivity|]. split; [vm_compute; reflexivity|].
  exists (Some 5), (Some 10). simpl. auto.
Qed.
Example C06_example :
  exists s, ex_spec = Ok s /\ bins _ _ _ String.eqb s true = [Some "lo"; Some "mid"; Some "nan"; None]%string.
Proof. eexists. split; vm_compute; reflexivity. Qed.
Example C07_example :
  construct Z string nat Z_pyorder Nat.eqb (fun _ => Ok 0%nat) (fun _ => Ok 1%nat) (fun _ => 1%nat)
    (fun s => s) (edges_as_str_float fmt20) [0; 5; 3] None true true None = Err ValueError
  /\ exists s, construct Z string nat Z_pyorder Nat.eqb (fun _ => Ok 0%nat) (fun _ => Ok 1%nat) (fun _ => 1%nat)
    (fun s => s) (edges_as_str_float fmt20) [0; 10^20; 125*10^18; 2*10^20] None true false None = Ok s
    /\ names s = [Some "(0.00, 1.00]"; Some "(1.00, 1.25]"; Some "(1.25, 2.00]"]%string.
Proof. split; [vm_compute; reflexivity|]. eexists. split; vm_compute; reflexivity. Qed.
