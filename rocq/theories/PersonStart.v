(** New sessions over datasets that differ in the rows of some IDs. *)
From Coq Require Import String Bool Arith ZArith QArith Lia Permutation List.
From Verif Require Import Prelude Budget BudgetProofs Value Rows Constraints ConstraintsSpec ConstraintsProofs Schema SchemaProofs Query Transform TransformSpec
  TransformConform TransformVisit TransformAgree TransformIds QueryProofs Tables TablesProofs
  Accountant AccountantProofs Session SessionSpec SessionMoney SessionSteps SessionTables SessionInv SessionViews SessionWell
  Neighboring NeighboringSpec NeighboringProofs Builder BuilderProofs BuilderTree BuilderBuild BuilderCalls BuilderSpec BuilderNeighbours SessionSound
  BlindSpec Blind BlindSession BlindBuilder PersonSpec PersonSession.
Import ListNotations.
Local Open Scope string_scope.
Local Open Scope nat_scope.

Lemma map_flat_map_out {A B C} (f : B -> C) (g : A -> list B) l : map f (flat_map g l) = flat_map (fun x => map f (g x)) l.
Proof. induction l as [|x l IH]; [reflexivity|]. cbn. rewrite map_app, IH. reflexivity. Qed.
Lemma flat_map_map {A B C} (f : A -> B) (g : B -> list C) l : flat_map g (map f l) = flat_map (fun x => g (f x)) l.
Proof. induction l as [|x l IH]; [reflexivity|]. cbn. rewrite IH. reflexivity. Qed.
Lemma named_hide x : named (hide_tree x) = hide_all (named x).
Proof.
  assert (LF : forall p : ident * tree, named_leaf (fst p, hide_tree (snd p)) = hide_all (named_leaf p)) by (intros ([n| |], [t|b l]); reflexivity).
  destruct x as [t|b kids]; [reflexivity|]. cbn [hide_tree named]. unfold hide_all at 1. rewrite map_flat_map_out. rewrite flat_map_map. apply flat_map_ext. intros (i, [t|b' l]).
  - exact (LF (i, TLeaf t)).
  - unfold named_entry. cbn [snd fst hide_tree]. rewrite flat_map_map, map_flat_map_out. apply flat_map_ext. exact LF.
Qed.
Lemma hide_get x x' n : hide_tree x = hide_tree x' -> option_map hide (dget n (named x)) = option_map hide (dget n (named x')).
Proof. intros H. apply (f_equal named) in H. rewrite !named_hide in H. apply (f_equal (dget n)) in H. unfold hide_all in H. rewrite !(dget_map_val hide) in H. exact H. Qed.
Lemma chain_brun E : forall l b b', ~ In Build l -> chain E b l = Ok b' -> brun E b l = b'.
Proof.
  induction l as [|c l IH]; intros b b' NB H; cbn in H |- *; [congruence|]. apply bind_ok in H as (b1 & C & H). apply IH; [intros I; apply NB; right; exact I|].
  replace (bstep E b c) with b1; [exact H|]. unfold bstep. destruct c; try (rewrite C; reflexivity). exfalso. apply NB. left. reflexivity.
Qed.
Lemma build_by_brun E l o : ~ In Build l -> build_by E l = Ok o -> snd (Builder.build E (brun E empty_builder l)) = Ok o.
Proof. intros NB H. unfold build_by in H. apply bind_ok in H as (b & C & H). rewrite (chain_brun E l _ b NB C). exact H. Qed.

Lemma rows_stored f : readable f -> frame_conforms f -> frame_rows (stored f) = frame_rows f.
Proof. intros (f' & H) C. unfold stored. rewrite H. apply (coerce_conforms f f' C H). Qed.

Section Start.
Variable E : env.
Variable k : string.
Variable keep : value -> bool.
Notation R := (restrict (Some k) keep).
Lemma R_same t t' : hide t = hide t' ->
  (forall i, v_place t = PKeys i -> v_coll t = Some k -> filter (fun r => keep (getv i r)) (v_rows t) = filter (fun r => keep (getv i r)) (v_rows t')) ->
  (v_coll t <> Some k -> v_rows t = v_rows t') -> placed t -> R t = R t'.
Proof.
  intros H A B P. assert (D : v_dom t = v_dom t') by exact (f_equal v_dom H). assert (C : v_coll t = v_coll t') by exact (f_equal v_coll H). assert (PL : v_place t = v_place t') by exact (f_equal v_place H).
  destruct t as [d c p rows], t' as [d' c' p' rows']. cbn in *. subst d' c' p'. unfold restrict. cbn [v_place v_coll v_dom v_rows].
  destruct p as [i| |g b i|g b]; try (rewrite B; [reflexivity|unfold placed in P; cbn in P; first [contradiction|congruence]]).
  destruct (option_eqb String.eqb c (Some k)) eqn:OE.
  - apply (option_eqb_eq String.eqb String.eqb_eq) in OE. rewrite (A i eq_refl OE). reflexivity.
  - rewrite B; [reflexivity|]. intros ->. cbn in OE. rewrite String.eqb_refl in OE. discriminate.
Qed.
Lemma same_call_for_hide c c' : same_call_for k keep c c' -> hide_call c = hide_call c'.
Proof. destruct c, c'; cbn; try congruence. intros (-> & -> & F & _). unfold hide_frame. now rewrite F. Qed.
Lemma calls_same l l' o o' : ~ In Build l -> ~ In Build l' -> Forall2 (same_call_for k keep) l l' -> build_by E l = Ok o -> build_by E l' = Ok o' ->
  same_but_rows (o_state o) (o_state o').
Proof.
  intros NB NB' F B B'. apply build_by_brun in B, B'; try assumption. assert (X : map hide_call l = map hide_call l').
  { clear -F. induction F as [|c c' l l' S F IH]; [reflexivity|]. cbn. f_equal; [apply same_call_for_hide, S|exact IH]. }
  pose proof (brun_hide E l empty_builder) as B1. pose proof (brun_hide E l' empty_builder) as B2. rewrite X, B2 in B1.
  pose proof (build_hide_b E (brun E empty_builder l)) as C1. pose proof (build_hide_b E (brun E empty_builder l')) as C2. rewrite B1, C1 in C2.
  destruct (Builder.build E (brun E empty_builder l)) as (b1, r1), (Builder.build E (brun E empty_builder l')) as (b2, r2). cbn [snd fst] in *. subst r1 r2. cbn [rmap] in C2.
  assert (HO : hide_opened o = hide_opened o') by congruence. exact (f_equal o_state HO).
Qed.
(** The private frames with the same name. *)
Lemma frames_for l l' : Forall2 (same_call_for k keep) l l' -> forall n f c, In (n, (f, c)) (privates l) ->
  exists f', In (n, (f', c)) (privates l') /\ sd_fields f = sd_fields f' /\ match c with
         | AddRowsWithID i s => if String.eqb s k then filter (fun r => keep (getv i r)) (frame_rows f) = filter (fun r => keep (getv i r)) (frame_rows f') else f = f'
         | _ => f = f' end.
Proof.
  induction 1 as [|c c' l l' S F IH]; intros n f x I; [contradiction|]. change (privates (c :: l)) with ((match c with WithPrivate n f p => [(n, (f, p))] | _ => [] end) ++ privates l)%list in I.
  change (privates (c' :: l')) with ((match c' with WithPrivate n f p => [(n, (f, p))] | _ => [] end) ++ privates l')%list. apply in_app_or in I as [I|I].
  - destruct c as [|n0 f0 x0| | |]; try contradiction. destruct c' as [|n1 f1 x1| | |]; try discriminate S. destruct S as (<- & <- & F1 & F2). destruct I as [I|[]]. injection I as <- <- <-.
    exists f1. split; [left; reflexivity|]. split; [exact F1|exact F2].
  - destruct (IH n f x I) as (f' & J & K). exists f'. split; [apply in_or_app; right; exact J|exact K].
Qed.
Lemma start_follows l l' o o' : ~ In Build l -> ~ In Build l' -> Forall2 (same_call_for k keep) l l' -> build_by E l = Ok o -> build_by E l' = Ok o' ->
  (forall n f c, In (n, (f, c)) (privates l) -> frame_conforms f) -> (forall n f c, In (n, (f, c)) (privates l') -> frame_conforms f) ->
  follows k keep (o_state o) (o_state o').
Proof.
  intros NB NB' F B B' FC FC'. pose proof (calls_same l l' o o' NB NB' F B B') as SB.
  destruct (proj1 (build_by_iff E l NB) (ex_intro _ o B)) as [_ _ ND _ _ BF _ _ _]. destruct (proj1 (build_by_iff E l' NB') (ex_intro _ o' B')) as [_ _ ND' _ _ BF' _ _ _].
  destruct (start_sound E true l o NB B) as (_ & TA & _).
  intros p s s' S S'. left. intros n. pose proof (pair_hide (o_state o) (o_state o') p s s' SB S S') as HS. pose proof (hide_get _ _ n (f_equal s_tree HS)) as HG.
  pose proof (TA p s S) as TK.
  destruct (build_by_result E l o NB B) as (x & names & _ & _ & _ & _ & ->). destruct (build_by_result E l' o' NB' B') as (x' & names' & _ & _ & _ & _ & ->). cbn [o_state] in *.
  assert (NL : NoDup (dkeys (stored_private (privates l)))) by (rewrite stored_keys; apply (nodup_append_inv _ _ ND)).
  assert (NL' : NoDup (dkeys (stored_private (privates l')))) by (rewrite stored_keys; apply (nodup_append_inv _ _ ND')).
  assert (T : s_tree s = tree_of_sources (is_rho x) (stored_private (privates l))) by (destruct S as (c & FD & <-); cbn in FD; destruct p as [|(a, i) p]; [|destruct a; discriminate]; injection FD as <-; reflexivity).
  assert (T' : s_tree s' = tree_of_sources (is_rho x') (stored_private (privates l'))) by (destruct S' as (c & FD & <-); cbn in FD; destruct p as [|(a, i) p]; [|destruct a; discriminate]; injection FD as <-; reflexivity).
  destruct (dget n (named (s_tree s))) as [t|] eqn:G, (dget n (named (s_tree s'))) as [t'|] eqn:G'; try discriminate HG; [|reflexivity]. cbn [option_map] in *. f_equal.
  assert (HT : hide t = hide t') by congruence.
  assert (PT : placed t) by (destruct (data_of_spec _ (tk_layout s TK)) as (da & DA & DG); apply (data_placed _ da (tk_layout s TK) DA n); rewrite DG; exact G).
  pose proof G as G0. pose proof G' as G0'.
  rewrite T, (named_sources _ _ n NL) in G0. rewrite T', (named_sources _ _ n NL') in G0'.
  destruct (dget n (stored_private (privates l))) as [(f, c)|] eqn:D; [|discriminate]. destruct (dget n (stored_private (privates l'))) as [(f', c')|] eqn:D'; [|discriminate].
  cbn in G0, G0'. injection G0 as <-. injection G0' as <-. apply dget_In in D, D'. apply in_stored in D as (g & D & ->). apply in_stored in D' as (g' & D' & ->).
  destruct (frames_for l l' F n g c D) as (g1 & J & _ & EQ).
  assert (g1 = g' /\ c = c') as (-> & <-).
  { pose proof (In_dget _ _ _ (proj1 (nodup_append_inv _ _ ND')) J) as Z1. pose proof (In_dget _ _ _ (proj1 (nodup_append_inv _ _ ND')) D') as Z2. split; congruence. }
  destruct (BF n g c D) as (_ & RG & _). destruct (BF' n g' c D') as (_ & RG' & _).
  apply R_same; try assumption; cbn [v_place v_coll v_rows source_table]; rewrite (rows_stored g RG (FC n g c D)), (rows_stored g' RG' (FC' n g' c D')).
  - intros i P C. destruct c as [m|g0 a b|i0 s0]; cbn in P, C; try discriminate. injection P as ->. injection C as ->. rewrite String.eqb_refl in EQ. exact EQ.
  - intros NC. destruct c as [m|g0 a b|i0 s0]; cbn in NC; try congruence. destruct (String.eqb_spec s0 k) as [->|_]; congruence.
Qed.
End Start.
