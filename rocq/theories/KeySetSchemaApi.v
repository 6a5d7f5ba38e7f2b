(** From attributes of trees (KeySetSchema.v) to the schemas users see. *)
From Coq Require Import String Bool Arith ZArith Lia Permutation List.
From Verif Require Import Prelude Value KeySet KeySetSem KeySetRules KeySetApi KeySetSchema.
Import ListNotations.
Local Open Scope list_scope.

Definition of_type (t : ctype) (d : coldesc) : Prop := cd_type d = t.
Definition has_mark (m : mark) (d : coldesc) : Prop := marked m d = true.
(** [d] has the attributes the tree gives to column [c]. *)
Definition agrees (d : coldesc) (o : op) (c : string) : Prop :=
  (forall t, cd_type d = t <-> attr (of_type t) o c) /\ (forall m, marked m d = true <-> attr (has_mark m) o c).
Definition sch_ok (s : dict coldesc) (o : op) : Prop :=
  NoDup (dkeys s) /\ (forall c, In c (dkeys s) <-> In c (columns o))
  /\ forall c d, dget c s = Some d -> agrees d o c.

Lemma fold_functional {V} (F : string -> option V) l : forall d k, (forall n v, In (n, v) l -> F n = Some v) ->
  dget k (fold_left (fun d p => dset (fst p) (snd p) d) l d) = if smem k (map fst l) then F k else dget k d.
Proof.
  induction l as [|(a & v) l IH]; intros d k H; [reflexivity|]. cbn [fold_left fst snd map].
  rewrite IH by (intros n w I; apply H; right; exact I). unfold smem. cbn [existsb]. fold (smem k (map fst l)).
  rewrite dget_dset, String.eqb_sym. destruct (smem k (map fst l)); [rewrite orb_true_r; reflexivity|].
  rewrite orb_false_r. destruct (String.eqb k a) eqn:E; [|reflexivity]. apply String.eqb_eq in E as ->.
  symmetry. apply H. left. reflexivity.
Qed.
Lemma dict_of_functional {V} (F : string -> option V) l k : (forall n v, In (n, v) l -> F n = Some v) ->
  dget k (dict_of l) = if smem k (map fst l) then F k else None.
Proof. intros H. exact (fold_functional F l [] k H). Qed.

Lemma dget_some {V} c (s : dict V) : In c (dkeys s) <-> exists d, dget c s = Some d.
Proof.
  destruct (dget c s) as [d|] eqn:E.
  - split; [eauto|]. intros _. apply dget_In in E. apply in_map_iff. exists (c, d). auto.
  - apply dget_None in E. split; [contradiction|]. intros (d & X). discriminate.
Qed.

Lemma dget_app {V} c (a b : dict V) : dget c (a ++ b) = match dget c a with Some v => Some v | None => dget c b end.
Proof.
  induction a as [|[k v] a IH]; cbn [app dget]; [reflexivity|]. destruct (String.eqb c k); [reflexivity|exact IH].
Qed.

Lemma join_schema_spec on right : forall left, NoDup (dkeys right) -> NoDup (dkeys left) ->
  (forall c, In c (dkeys right) -> (In c on <-> In c (dkeys left))) ->
  exists s, join_schema on left right = Ok s /\ NoDup (dkeys s)
  /\ forall c, dget c s = match dget c left, dget c right with
                          | Some a, Some b => Some (desc_and a b)
                          | Some a, None => Some a
                          | None, x => x
                          end.
Proof.
  unfold join_schema. induction right as [|[c d] r IH]; intros left Nr Nl H; cbn [fold_left].
  - exists left. split; [reflexivity|]. split; [assumption|]. intros c. cbn [dget]. destruct (dget c left); reflexivity.
  - inversion Nr as [|? ? Nc Nr']; subst. cbn [bind].
    assert (K : exists left', (if smem c on then let* d0 := dget_res c left in Ok (dset c (desc_and d0 d) left)
                               else Ok (dset c d left)) = Ok left'
                /\ NoDup (dkeys left') /\ (forall x, In x (dkeys left') <-> x = c \/ In x (dkeys left))
                /\ forall x, dget x left' = if String.eqb x c then
                     Some (match dget c left with Some a => desc_and a d | None => d end) else dget x left).
    { assert (DK : forall v x, In x (dkeys (dset c v left)) <-> x = c \/ In x (dkeys left)).
      { intros v x. rewrite dkeys_dset. destruct (smem c (dkeys left)) eqn:M.
        - apply smem_In in M. split; [auto|]. intros [->|?]; assumption.
        - rewrite in_app_iff. cbn [In]. split; [intros [?|[?|[]]]|intros [?|?]]; auto. }
      destruct (smem c on) eqn:M.
      - apply smem_In in M. apply H in M; [|left; reflexivity]. unfold dget_res.
        destruct (dget c left) as [v|] eqn:E; [|apply dget_None in E; contradiction].
        cbn [bind]. eexists. split; [reflexivity|]. split; [apply NoDup_dset; assumption|]. split; [apply DK|].
        intros x. rewrite dget_dset, String.eqb_sym. reflexivity.
      - apply smem_false in M. eexists. split; [reflexivity|]. split; [apply NoDup_dset; assumption|].
        split; [apply DK|]. intros x. rewrite dget_dset, String.eqb_sym.
        assert (N : ~ In c (dkeys left)) by (intros X; apply M, H; [left; reflexivity|exact X]).
        apply dget_None in N. rewrite N. reflexivity. }
    destruct K as (left' & E & N' & K1 & K2). rewrite E.
    destruct (IH left' Nr' N') as (s & Es & Ns & Ts).
    { intros x Hx. rewrite K1, (H x (or_intror Hx)). split; [auto|].
      intros [->|?]; [contradiction|assumption]. }
    exists s. split; [exact Es|]. split; [assumption|]. intros x. rewrite Ts, K2. cbn [dget].
    destruct (String.eqb_spec x c) as [->|n]; [|reflexivity].
    assert (dget c r = None) as -> by (apply dget_None; exact Nc).
    destruct (dget c left); reflexivity.
Qed.

(** *** Constructors' type checks *)
Lemma types_match_spec on sl sr : types_match on sl sr = Ok true -> forall c, In c on ->
  exists a b, dget c sl = Some a /\ dget c sr = Some b /\ cd_type a = cd_type b.
Proof.
  intros E c Hc. unfold types_match in E. apply bind_ok in E as (bs & Eb & E). injection E as E.
  apply mapM_ok_Forall2 in Eb. destruct (Forall2_In_l _ _ _ c Eb Hc) as (b & Hb & F).
  rewrite forallb_forall in E. specialize (E b Hb). apply bind_ok in F as (x & Ex & F).
  apply bind_ok in F as (y & Ey & F). injection F as F. unfold dget_res in *.
  destruct (dget c sl) as [x'|]; [|discriminate]. destruct (dget c sr) as [y'|]; [|discriminate].
  injection Ex as ->. injection Ey as ->. exists x, y. split; [reflexivity|]. split; [reflexivity|].
  apply ctype_eqb_eq. congruence.
Qed.

Lemma mkJoin_types l r : checked (Join l r) ->
  exists sl sr, schema l = Ok sl /\ schema r = Ok sr /\ forall c, In c (join_columns l r) ->
    exists a b, dget c sl = Some a /\ dget c sr = Some b /\ cd_type a = cd_type b.
Proof.
  intros C. pose proof (checked_concrete _ C) as Pl. destruct C as (Mk & _). unfold mkJoin in Mk.
  apply bind_ok in Mk as (u & _ & Mk). rewrite Pl in Mk.
  apply bind_ok in Mk as (sl & El & Mk). apply bind_ok in Mk as (sr & Er & Mk).
  apply bind_ok in Mk as (b & Eb & Mk). destruct b; [|discriminate].
  exists sl, sr. split; [exact El|]. split; [exact Er|]. apply types_match_spec, Eb.
Qed.
Lemma mkUnion_types l r : checked (Union l r) ->
  exists sl sr, schema l = Ok sl /\ schema r = Ok sr /\ forall c, In c (columns l) ->
    exists a b, dget c sl = Some a /\ dget c sr = Some b /\ cd_type a = cd_type b.
Proof.
  intros C. pose proof (checked_concrete _ C) as Pl. destruct C as (Mk & _). unfold mkUnion in Mk.
  apply bind_ok in Mk as (u & _ & Mk). cbn [is_plan] in Pl. rewrite Pl in Mk.
  apply bind_ok in Mk as (sl & El & Mk). apply bind_ok in Mk as (sr & Er & Mk).
  apply bind_ok in Mk as (b & Eb & Mk). destruct b; [|discriminate].
  exists sl, sr. split; [exact El|]. split; [exact Er|]. apply types_match_spec, Eb.
Qed.

Lemma leaf_ok d c x (o : op) : (forall P, attr P o c <-> forall y, dget c d = Some y -> P y) ->
  dget c d = Some x -> agrees x o c.
Proof.
  intros A E. split.
  - intros t. rewrite A. unfold of_type. split; [intros H y Ey; congruence|intros H; apply H, E].
  - intros m. rewrite A. unfold has_mark. split; [intros H y Ey; congruence|intros H; apply H, E].
Qed.

Lemma agrees_attr d o o' c : (forall P, attr P o c <-> attr P o' c) -> agrees d o c -> agrees d o' c.
Proof. intros A [T M]. split; [intros t; rewrite <- A; apply T|intros m; rewrite <- A; apply M]. Qed.

Lemma marked_and m a b : marked m (desc_and a b) = marked m a && marked m b.
Proof. destruct m; reflexivity. Qed.
Lemma marked_or m a b : marked m (desc_or a b) = marked m a || marked m b.
Proof. destruct m; reflexivity. Qed.

(** Schemas of the factors of a product, put together. *)
Lemma merged fs : ForallOrdPairs (fun f g => forall c, In c (columns f) -> In c (columns g) -> False) fs ->
  forall ss, Forall2 (fun f s => sch_ok s f) fs ss -> forall acc, NoDup (dkeys acc) ->
  (forall c f, In f fs -> In c (columns f) -> ~ In c (dkeys acc)) ->
  fold_left dmerge ss acc = acc ++ concat ss /\ NoDup (dkeys (acc ++ concat ss)).
Proof.
  induction fs as [|f fs IH]; intros DJ ss F2 acc Na Dj; inversion F2 as [|? s ? ss' H F2']; subst.
  - cbn [fold_left concat]. rewrite app_nil_r. auto.
  - inversion DJ as [|? ? DJf DJ']; subst. cbn [fold_left concat].
    destruct H as (Ns & Ks & _).
    assert (Dm : dmerge acc s = acc ++ s).
    { apply dmerge_keys; [exact Na| |exact Ns]. intros c Hc. apply Ks in Hc. eapply Dj; [left; reflexivity|exact Hc]. }
    rewrite Dm.
    assert (Nas : NoDup (dkeys (acc ++ s))).
    { unfold dkeys. rewrite map_app. apply NoDup_app_disjoint; [exact Na|exact Ns|].
      intros x Hx Hs. apply Ks in Hs. eapply Dj; [left; reflexivity|exact Hs|exact Hx]. }
    destruct (IH DJ' ss' F2' (acc ++ s) Nas) as [E N].
    { intros c g Hg Hc. unfold dkeys. rewrite map_app. intros Hx. apply in_app_or in Hx as [Hx|Hx].
      - eapply Dj; [right; exact Hg|exact Hc|exact Hx].
      - apply Ks in Hx. rewrite Forall_forall in DJf. eapply DJf; eauto. }
    rewrite <- app_assoc in E, N. auto.
Qed.

Lemma in_concat_dget (c : string) (d : coldesc) ss : dget c (concat ss) = Some d -> exists s, In s ss /\ dget c s = Some d.
Proof.
  induction ss as [|s ss IH]; cbn [concat]; [discriminate|]. rewrite dget_app. destruct (dget c s) as [x|] eqn:E.
  - intros H. injection H as <-. exists s. split; [left; reflexivity|exact E].
  - intros H. destruct (IH H) as (t & Ht & E'). exists t. split; [right; exact Ht|exact E'].
Qed.

Lemma disjoint_others fs f c : ForallOrdPairs (fun f g => forall c, In c (columns f) -> In c (columns g) -> False) fs ->
  In f fs -> In c (columns f) -> forall g, In g fs -> g = f \/ ~ In c (columns g).
Proof.
  intros DJ Hf Hc g Hg.
  destruct (ForallOrdPairs_In DJ f g Hf Hg) as [E|[H|H]].
  - left. symmetry. exact E.
  - right. intros X. eapply H; eauto.
  - right. intros X. eapply H; eauto.
Qed.

Theorem schema_spec o : checked o -> exists s, schema o = Ok s /\ sch_ok s o.
Proof.
  induction o as [t d|p d|cs|im fs IH|l r IHl IHr|x cs IH|x k IH|l r IHl IHr|l r IHl IHr] using op_ind'; intros C.
  - exists d. split; [reflexivity|]. split; [exact C|]. split; [intros c; reflexivity|].
    intros c y E. eapply leaf_ok; [|exact E]. intros P. reflexivity.
  - exists d. split; [reflexivity|]. split; [exact C|]. split; [intros c; reflexivity|].
    intros c y E. eapply leaf_ok; [|exact E]. intros P. reflexivity.
  - destruct C.
  - apply checked_cross in C as [Mk C]. apply mkCrossJoin_ok in Mk as (_ & _ & DJ & _).
    rewrite Forall_forall in IH.
    assert (X : exists ss, mapM schema fs = Ok ss /\ Forall2 (fun f s => sch_ok s f) fs ss).
    { clear DJ. induction fs as [|f fs IHf]; [exists []; split; [reflexivity|constructor]|].
      destruct (IH f (or_introl eq_refl) (C f (or_introl eq_refl))) as (s & Es & Hs).
      destruct IHf as (ss & Ess & Hss).
      { intros g Hg. apply IH. right. exact Hg. } { intros g Hg. apply C. right. exact Hg. }
      exists (s :: ss). cbn [mapM]. rewrite Es. cbn [bind]. rewrite Ess. split; [reflexivity|constructor; assumption]. }
    destruct X as (ss & Ess & F2). cbn [schema]. rewrite Ess. cbn [bind].
    destruct (merged fs DJ ss F2 [] (NoDup_nil _)) as [E N]. { intros c f _ _ []. }
    cbn [app] in E, N. rewrite E. exists (concat ss). split; [reflexivity|]. split; [exact N|]. split.
    + intros c. split.
      * intros Hc. apply dget_some in Hc as (d & Hd). apply in_concat_dget in Hd as (s & Hs & Hd).
        destruct (Forall2_In_r _ _ _ s F2 Hs) as (f & Hf & (_ & Ks & _)). apply columns_cross. exists f.
        split; [exact Hf|]. apply Ks. apply dget_some. eauto.
      * intros Hc. apply columns_cross in Hc as (f & Hf & Hc).
        destruct (Forall2_In_l _ _ _ f F2 Hf) as (s & Hs & (_ & Ks & _)). apply Ks in Hc.
        unfold dkeys in *. apply in_map_iff in Hc as (q & <- & Hq). apply in_map. apply in_concat. eauto.
    + intros c d Hd. apply in_concat_dget in Hd as (s & Hs & Hd).
      destruct (Forall2_In_r _ _ _ s F2 Hs) as (f & Hf & (_ & Ks & As)).
      assert (Hc : In c (columns f)) by (apply Ks, dget_some; eauto).
      apply (agrees_attr d f); [|apply As, Hd]. intros P. rewrite attr_cross. split.
      * intros A g Hg. destruct (disjoint_others fs f c DJ Hf Hc g Hg) as [->|Hn]; [exact A|apply attr_out, Hn].
      * intros A. apply A, Hf.
  - destruct (mkJoin_types l r C) as (sl & sr & El & Er & Ty). destruct C as (Mk & Cl & Cr).
    destruct (IHl Cl) as (sl' & El' & (Nl & Kl & Al)). destruct (IHr Cr) as (sr' & Er' & (Nr & Kr & Ar)).
    assert (sl' = sl) as -> by congruence. assert (sr' = sr) as -> by congruence.
    cbn [schema]. rewrite El, Er. cbn [bind].
    destruct (join_schema_spec (join_columns l r) sr sl Nr Nl) as (s & Es & Ns & Ds).
    { intros c Hc. unfold join_columns. rewrite common_In, Kl. apply Kr in Hc. tauto. }
    exists s. split; [exact Es|]. split; [exact Ns|]. split.
    + intros c. cbn [columns]. rewrite union_cols_In, <- Kl, <- Kr, !dget_some. rewrite Ds.
      destruct (dget c sl) as [a|], (dget c sr) as [b|]; split; intros H; eauto;
        destruct H as [H|H]; (try destruct H; discriminate); eauto.
    + intros c d. rewrite Ds. destruct (dget c sl) as [a|] eqn:Ea; destruct (dget c sr) as [b|] eqn:Eb; intros H; try discriminate.
      * injection H as <-. destruct (Al c a Ea) as [Ta Ma], (Ar c b Eb) as [Tb Mb].
        destruct (Ty c) as (a' & b' & Ea' & Eb' & Tab).
        { unfold join_columns. apply common_In. rewrite <- Kl, <- Kr, !dget_some. eauto. }
        assert (a' = a) as -> by congruence. assert (b' = b) as -> by congruence.
        split.
        -- intros t. cbn [attr]. rewrite <- Ta, <- Tb, <- Tab. cbn [desc_and cd_type]. tauto.
        -- intros m. cbn [attr]. rewrite <- Ma, <- Mb, marked_and, andb_true_iff. tauto.
      * injection H as <-. apply (agrees_attr a l); [|apply Al, Ea]. intros P. cbn [attr].
        assert (attr P r c); [|tauto]. apply attr_out. rewrite <- Kr. apply dget_None, Eb.
      * injection H as <-. apply (agrees_attr b r); [|apply Ar, Eb]. intros P. cbn [attr].
        assert (attr P l c); [|tauto]. apply attr_out. rewrite <- Kl. apply dget_None, Ea.
  - destruct C as (Mk & C). apply mkProject_ok in Mk as (_ & _ & Sub).
    destruct (IH C) as (s & Es & (Ns & Ks & As)). cbn [schema]. rewrite Es. cbn [bind].
    assert (X : exists ds, mapM (fun y => let* d := dget_res y s in Ok (y, d)) cs = Ok ds /\ map fst ds = cs
                /\ forall n v, In (n, v) ds -> dget n s = Some v).
    { clear IH. assert (Sub' : forall y, In y cs -> In y (dkeys s)) by (intros y Hy; apply Ks, Sub, Hy).
      clear Sub. induction cs as [|y cs IHc]; [exists []; split; [reflexivity|split; [reflexivity|intros n v []]]|].
      destruct IHc as (ds & Ed & Fd & Gd). { intros z Hz. apply Sub'. right. exact Hz. }
      destruct (proj1 (dget_some y s) (Sub' y (or_introl eq_refl))) as (d & Hd).
      exists ((y, d) :: ds). cbn [mapM]. unfold dget_res at 1. rewrite Hd. cbn [bind]. rewrite Ed. cbn [bind map fst].
      split; [reflexivity|]. split; [f_equal; exact Fd|]. intros n v [H|H]; [injection H as <- <-; exact Hd|apply Gd, H]. }
    destruct X as (ds & Ed & Fd & Gd). rewrite Ed. cbn [bind].
    exists (dict_of ds). split; [reflexivity|]. split; [apply NoDup_dict_of|].
    assert (G : forall c, dget c (dict_of ds) = if smem c cs then dget c s else None).
    { intros c. rewrite (dict_of_functional (fun n => dget n s) ds c Gd), Fd. reflexivity. }
    split.
    + intros c. cbn [columns]. rewrite KeySetApi.dict_of_keys, Fd. tauto.
    + intros c d. rewrite G. destruct (smem c cs) eqn:M; [|discriminate]. apply smem_In in M. intros Hd.
      apply (agrees_attr d x); [|apply As, Hd]. intros P. cbn [attr]. tauto.
  - destruct (IH C) as (s & Es & (Ns & Ks & As)). exists s. cbn [schema]. split; [exact Es|].
    split; [exact Ns|]. split; [exact Ks|]. intros c d Hd. apply (agrees_attr d x); [|apply As, Hd]. intros P. reflexivity.
  - destruct C as (_ & Cl & Cr). destruct (IHl Cl) as (s & Es & (Ns & Ks & As)). exists s. cbn [schema]. split; [exact Es|].
    split; [exact Ns|]. split; [exact Ks|]. intros c d Hd. apply (agrees_attr d l); [|apply As, Hd]. intros P. reflexivity.
  - destruct (mkUnion_types l r C) as (sl & sr & El & Er & Ty). destruct C as (Mk & Cl & Cr).
    destruct (IHl Cl) as (sl' & El' & (Nl & Kl & Al)). destruct (IHr Cr) as (sr' & Er' & (Nr & Kr & Ar)).
    assert (sl' = sl) as -> by congruence. assert (sr' = sr) as -> by congruence.
    cbn [schema]. rewrite El, Er. cbn [bind].
    set (F := fun n => match dget n sl, dget n sr with Some a, Some b => Some (desc_or a b) | _, _ => None end).
    assert (X : exists ds, mapM (fun p => let* d := dget_res (fst p) sr in Ok (fst p, desc_or (snd p) d)) sl = Ok ds
                /\ map fst ds = dkeys sl /\ forall n v, In (n, v) ds -> F n = Some v).
    { assert (H : forall q, In q sl -> dget (fst q) sl = Some (snd q) /\ exists b, dget (fst q) sr = Some b).
      { intros [n a] Hq. cbn [fst snd]. split; [apply In_dget; assumption|].
        destruct (Ty n) as (a' & b' & _ & Eb & _); [|eauto]. apply Kl. apply in_map_iff. exists (n, a). auto. }
      assert (G : forall l0, (forall q, In q l0 -> dget (fst q) sl = Some (snd q) /\ exists b, dget (fst q) sr = Some b) ->
        exists ds, mapM (fun p => let* d := dget_res (fst p) sr in Ok (fst p, desc_or (snd p) d)) l0 = Ok ds
                /\ map fst ds = dkeys l0 /\ forall n v, In (n, v) ds -> F n = Some v); [|apply G, H].
      induction l0 as [|[n a] l0 IHd]; intros H0; [exists []; split; [reflexivity|split; [reflexivity|intros n v []]]|].
      destruct IHd as (ds & Ed & Fd & Gd). { intros q Hq. apply H0. right. exact Hq. }
      destruct (H0 (n, a) (or_introl eq_refl)) as (E1 & b & E2). cbn [fst snd] in E1, E2.
      exists ((n, desc_or a b) :: ds). cbn [mapM fst snd]. unfold dget_res at 1. rewrite E2. cbn [bind]. rewrite Ed. cbn [bind map fst].
      split; [reflexivity|]. split; [unfold dkeys in *; cbn [map fst]; f_equal; exact Fd|].
      intros n' v [H1|H1]; [|apply Gd, H1]. injection H1 as <- <-. unfold F. rewrite E1, E2. reflexivity. }
    destruct X as (ds & Ed & Fd & Gd). rewrite Ed. cbn [bind].
    exists (dict_of ds). split; [reflexivity|]. split; [apply NoDup_dict_of|]. split.
    + intros c. cbn [columns]. rewrite KeySetApi.dict_of_keys, Fd. apply Kl.
    + intros c d. rewrite (dict_of_functional F ds c Gd), Fd. destruct (smem c (dkeys sl)) eqn:M; [|discriminate].
      unfold F. destruct (dget c sl) as [a|] eqn:Ea; [|discriminate]. destruct (dget c sr) as [b|] eqn:Eb; [|discriminate].
      intros H. injection H as <-. destruct (Al c a Ea) as [Ta Ma], (Ar c b Eb) as [Tb Mb].
      destruct (Ty c) as (a' & b' & Ea' & Eb' & Tab). { apply Kl, smem_In, M. }
      assert (a' = a) as -> by congruence. assert (b' = b) as -> by congruence.
      split.
      * intros t. cbn [attr]. rewrite <- Ta, <- Tb, <- Tab. cbn [desc_or cd_type]. tauto.
      * intros m. cbn [attr]. rewrite <- Ma, <- Mb, marked_or, orb_true_iff. tauto.
Qed.

(** Columns are an attribute, too. *)
Lemma attr_columns o c : checked o -> attr (fun _ => False) o c <-> ~ In c (columns o).
Proof.
  intros C. split; [|apply attr_out].
  revert C. induction o as [t d|p d|cs|im fs IH|l r IHl IHr|x cs IH|x k IH|l r IHl IHr|l r IHl IHr] using op_ind'; intros C A Hc.
  - cbn [columns] in Hc. apply dget_some in Hc as (y & Hy). apply (A y Hy).
  - cbn [columns] in Hc. apply dget_some in Hc as (y & Hy). apply (A y Hy).
  - destruct C.
  - apply checked_cross in C as [_ C]. apply columns_cross in Hc as (f & Hf & Hc).
    rewrite attr_cross in A. rewrite Forall_forall in IH. exact (IH f Hf (C f Hf) (A f Hf) Hc).
  - destruct C as (_ & Cl & Cr). destruct A as [A B]. cbn [columns] in Hc. apply union_cols_In in Hc as [Hc|Hc]; [exact (IHl Cl A Hc)|exact (IHr Cr B Hc)].
  - destruct C as (Mk & C). apply mkProject_ok in Mk as (_ & _ & Sub). cbn [columns] in Hc. exact (IH C (A Hc) (Sub c Hc)).
  - exact (IH C A Hc).
  - destruct C as (_ & Cl & Cr). exact (IHl Cl A Hc).
  - destruct C as (Mk & Cl & Cr). apply mkUnion_ok in Mk as (_ & S). destruct A as [A|A]; [exact (IHl Cl A Hc)|].
    apply (IHr Cr A). apply S, Hc.
Qed.

Lemma alike_columns o o' : checked o -> checked o' -> alike o o' -> forall c, In c (columns o) <-> In c (columns o').
Proof.
  intros C C' A c. pose proof (attr_columns o c C) as X. pose proof (attr_columns o' c C') as Y.
  specialize (A (fun _ => False) c).
  destruct (in_dec string_dec c (columns o)), (in_dec string_dec c (columns o')); tauto.
Qed.

(** ** KeySets *)
Section Api.
Variable W : world.

Definition described (k : keyset) (cs : list string) (M : mark -> string -> Prop) (Ty : string -> ctype -> Prop) : Prop :=
  checked (ks_tree k) /\ ks_cols k = cs /\ NoDup cs /\ (forall c, In c (columns (ks_tree k)) <-> In c cs)
  /\ forall c, In c cs -> (forall m, attr (has_mark m) (ks_tree k) c <-> M m c)
                        /\ (forall t, attr (of_type t) (ks_tree k) c <-> Ty c t).

Lemma described_plan k cs M Ty : described k cs M Ty -> ks_plan k = false.
Proof. intros (C & _). apply checked_concrete, C. Qed.

Lemma described_ext k cs (M M' : mark -> string -> Prop) (Ty Ty' : string -> ctype -> Prop) : described k cs M Ty ->
  (forall c, In c cs -> (forall m, M m c <-> M' m c) /\ (forall t, Ty c t <-> Ty' c t)) -> described k cs M' Ty'.
Proof.
  intros (C & E & N & K & A) H. repeat (split; [assumption|]). intros c Hc.
  destruct (A c Hc) as [A1 A2], (H c Hc) as [H1 H2].
  split; [intros m; rewrite A1; apply H1|intros t; rewrite A2; apply H2].
Qed.

Lemma mkKeySet_described o cs k : checked o -> mkKeySet W o cs = Ok k ->
  described k cs (fun m => attr (has_mark m) o) (fun c t => attr (of_type t) o c).
Proof.
  intros C E. unfold mkKeySet in E. apply bind_ok in E as (u & _ & E).
  apply has_dup_ok in E as [N E]. apply bind_ok in E as (u' & Es & E).
  destruct (set_eqb (columns o) cs) eqn:S; [|discriminate]. rewrite set_eqb_In in S.
  apply bind_ok in E as (t & Et & E). injection E as <-.
  destruct (rewrite_keeps W o t C Et) as [Ct At]. unfold described. cbn [ks_tree ks_cols].
  split; [exact Ct|]. split; [reflexivity|]. split; [exact N|]. split.
  - intros c. rewrite <- (alike_columns o t C Ct At c). apply S.
  - intros c _. split; [intros m|intros ty]; symmetry; apply At.
Qed.

Lemma mul_described a b k ca cb Ma Mb Ta Tb : described a ca Ma Ta -> described b cb Mb Tb -> ks_mul W a b = Ok k ->
  described k (ca ++ cb) (fun m c => (In c ca /\ Ma m c) \/ (In c cb /\ Mb m c))
    (fun c t => (In c ca /\ Ta c t) \/ (In c cb /\ Tb c t)).
Proof.
  intros Da Db E. unfold ks_mul in E. rewrite (described_plan _ _ _ _ Da), (described_plan _ _ _ _ Db) in E.
  destruct Da as (Ca & Ea & Na & Ka & Aa), Db as (Cb & Eb & Nb & Kb & Ab).
  apply bind_ok in E as (o & Eo & E). cbn [orb mkEither] in E.
  destruct (checked_mkCross false [ks_tree a; ks_tree b] o) as [-> Co]; [intros f [<-|[<-|[]]]; assumption|exact Eo|].
  apply mkCrossJoin_ok in Eo as (_ & _ & DJ & _).
  rewrite Ea, Eb in E. eapply described_ext; [eapply mkKeySet_described; eassumption|].
  intros c Hc.
  assert (Dj : In c ca -> In c cb -> False).
  { intros H1 H2. inversion DJ as [|? ? F _]; subst. rewrite Forall_forall in F.
    eapply (F (ks_tree b)); [left; reflexivity|apply Ka; exact H1|apply Kb; exact H2]. }
  assert (X : forall P, attr P (CrossJoin false [ks_tree a; ks_tree b]) c <->
     (In c ca /\ attr P (ks_tree a) c) \/ (In c cb /\ attr P (ks_tree b) c)).
  { intros P. cbn [attr fold_right]. apply in_app_or in Hc as [Hc|Hc].
    - assert (attr P (ks_tree b) c) by (apply attr_out; rewrite Kb; auto). tauto.
    - assert (attr P (ks_tree a) c) by (apply attr_out; rewrite Ka; auto). tauto. }
  split.
  - intros m. rewrite X. split; intros [[H1 H2]|[H1 H2]]; [left|right|left|right]; (split; [exact H1|]);
      first [apply (proj1 (Aa c H1)), H2|apply (proj1 (Ab c H1)), H2].
  - intros t. rewrite X. split; intros [[H1 H2]|[H1 H2]]; [left|right|left|right]; (split; [exact H1|]);
      first [apply (proj2 (Aa c H1)), H2|apply (proj2 (Ab c H1)), H2].
Qed.

(** *** from_tuples *)
Lemma infer_spec vs d : infer_column vs = Ok d ->
  (forall t, cd_type d = t <-> exists v, In v vs /\ value_type v = Some t)
  /\ (forall m, marked m d = true <-> m = MNull /\ In VNull vs).
Proof.
  unfold infer_column. intros E.
  set (typed := flat_map (fun v => match value_type v with Some t => [t] | None => [] end) vs) in E.
  assert (T : forall t, In t typed <-> exists v, In v vs /\ value_type v = Some t).
  { intros t. unfold typed. rewrite in_flat_map. split; intros (v & Hv & H); exists v; (split; [exact Hv|]).
    - destruct (value_type v); [destruct H as [->|[]]; reflexivity|destruct H].
    - rewrite H. left. reflexivity. }
  destruct typed as [|t0 ts]; [discriminate|]. destruct (forallb (ctype_eqb t0) ts) eqn:A; [|discriminate].
  injection E as <-. cbn [cd_type]. split.
  - intros t. rewrite <- T. split; [intros ->; left; reflexivity|]. intros [->|H]; [reflexivity|].
    rewrite forallb_forall in A. apply ctype_eqb_eq, A, H.
  - intros m. destruct m; cbn [marked cd_null cd_nan cd_inf].
    + rewrite existsb_exists. split.
      * intros (v & Hv & H). destruct v; try discriminate. auto.
      * intros [_ H]. exists VNull. auto.
    + split; [discriminate|intros [H _]; discriminate].
    + split; [discriminate|intros [H _]; discriminate].
Qed.

Lemma infer_columns ts (cs : list string) : forall n ds,
  mapM (fun p => let* d := infer_column (column_at (fst p) ts) in Ok (snd p, d)) (combine (seq n (length cs)) cs) = Ok ds ->
  forall c d, In (c, d) ds -> exists i, nth_error cs i = Some c /\ infer_column (column_at (n + i) ts) = Ok d.
Proof.
  induction cs as [|c0 cs IH]; intros n ds E c d H; cbn [length seq combine mapM] in E.
  - injection E as <-. destruct H.
  - apply bind_ok in E as (y & Ey & E). apply bind_ok in Ey as (d0 & Ed & Ey). injection Ey as <-.
    apply bind_ok in E as (ys & Eys & E). injection E as <-. cbn [fst snd] in *.
    destruct H as [H|H].
    + injection H as <- <-. exists 0%nat. rewrite Nat.add_0_r. auto.
    + destruct (IH (S n) ys Eys c d H) as (i & Hi & Ei). exists (S i). cbn [nth_error].
      replace (n + S i)%nat with (S n + i)%nat by lia. auto.
Qed.

Lemma nth_error_unique (cs : list string) i j c : NoDup cs -> nth_error cs i = Some c -> nth_error cs j = Some c -> i = j.
Proof.
  intros N Hi Hj. rewrite NoDup_nth_error in N. apply N; [|congruence]. apply nth_error_Some. congruence.
Qed.

Lemma from_tuples_described ts cs k : from_tuples W ts cs = Ok k ->
  described k cs (fun m => may m (ETuples ts cs)) (fun c => typed (ETuples ts cs) c).
Proof.
  intros E. unfold from_tuples in E. apply bind_ok in E as (u & _ & E). apply bind_ok in E as (ds & Ed & E).
  apply bind_ok in E as (o & Eo & E).
  assert (o = FromTuples (nodup row_eq_dec ts) (dict_of ds)) as ->.
  { unfold mkFromTuples in Eo. apply bind_ok in Eo as (u1 & _ & Eo). apply bind_ok in Eo as (u2 & _ & Eo). congruence. }
  pose proof (infer_names _ _ _ Ed) as Nm.
  assert (Co : checked (FromTuples (nodup row_eq_dec ts) (dict_of ds))) by apply NoDup_dict_of.
  pose proof (mkKeySet_described _ _ _ Co E) as Dk.
  assert (N : NoDup cs) by apply Dk.
  assert (dict_of ds = ds) as Ds by (apply dict_of_NoDup; rewrite Nm; exact N).
  rewrite Ds in *.
  eapply described_ext; [exact Dk|]. intros c Hc.
  assert (Hk : In c (dkeys ds)) by (unfold dkeys; rewrite Nm; exact Hc).
  apply dget_some in Hk as (d & Hd).
  assert (Nk : NoDup (dkeys ds)) by (unfold dkeys; rewrite Nm; exact N).
  destruct (infer_columns _ _ 0%nat ds Ed c d (dget_In _ _ _ Hd)) as (i & Hi & Ei). cbn [Nat.add] in Ei.
  destruct (infer_spec _ _ Ei) as [T M].
  assert (X : forall P, attr P (FromTuples (nodup row_eq_dec ts) ds) c <-> P d).
  { intros P. cbn [attr]. split; [intros H; apply H, Hd|intros H x Hx; congruence]. }
  assert (In_col : forall v, In v (column_at i (nodup row_eq_dec ts)) <-> exists r, In r ts /\ nth i r VNull = v).
  { intros v. unfold column_at. rewrite in_map_iff. split; intros (r & A & B); exists r.
    - apply nodup_In in B. auto.
    - split; [exact B|]. apply nodup_In, A. }
  split.
  - intros m. rewrite X. unfold has_mark. rewrite M. cbn [may]. rewrite In_col. split.
    + intros (-> & r & Hr & V). split; [reflexivity|]. exists i. split; [exact Hi|]. eauto.
    + intros (-> & j & Hj & r & Hr & V). split; [reflexivity|].
      rewrite (nth_error_unique cs i j c N Hi Hj). eauto.
  - intros t. rewrite X. unfold of_type. rewrite T. cbn [typed]. split.
    + intros (v & Hv & V). apply In_col in Hv as (r & Hr & <-). exists i. split; [exact Hi|]. eauto.
    + intros (j & Hj & r & Hr & V). rewrite (nth_error_unique cs j i c N Hj Hi) in V.
      exists (nth i r VNull). split; [apply In_col; eauto|exact V].
Qed.

(** *** from_dict *)
Lemma single_described c vs k : from_tuples W (map (fun v => [v]) vs) [c] = Ok k ->
  described k [c] (fun m x => m = MNull /\ In VNull vs) (fun x t => exists v, In v vs /\ value_type v = Some t).
Proof.
  intros E. eapply described_ext; [apply from_tuples_described; exact E|].
  intros x [<-|[]]. split.
  - intros m. cbn [may]. split.
    + intros (-> & i & Hi & r & Hr & V). split; [reflexivity|]. apply in_map_iff in Hr as (v & <- & Hv).
      destruct i as [|i]; [cbn in V; congruence|]. cbn [nth_error] in Hi. destruct i; discriminate.
    + intros (-> & H). split; [reflexivity|]. exists 0%nat. split; [reflexivity|]. exists [VNull].
      split; [apply in_map_iff; eauto|reflexivity].
  - intros t. cbn [typed]. split.
    + intros (i & Hi & r & Hr & V). apply in_map_iff in Hr as (v & <- & Hv).
      destruct i as [|i]; [exists v; auto|]. cbn [nth_error] in Hi. destruct i; discriminate.
    + intros (v & Hv & V). exists 0%nat. split; [reflexivity|]. exists [v]. split; [apply in_map_iff; eauto|exact V].
Qed.

Lemma mul_all_described l : forall acc k ca Ma Ta, described acc ca Ma Ta ->
  mul_all W acc (map (fun p => from_tuples W (map (fun v => [v]) (snd p)) [fst p]) l) = Ok k ->
  described k (ca ++ map fst l) (fun m c => (In c ca /\ Ma m c) \/ may m (EDict l) c)
    (fun c t => (In c ca /\ Ta c t) \/ typed (EDict l) c t).
Proof.
  induction l as [|[c vs] l IH]; intros acc k ca Ma Ta D E; cbn [map mul_all fst snd] in E.
  - injection E as <-. cbn [map]. rewrite app_nil_r. eapply described_ext; [exact D|]. intros c Hc. split.
    + intros m. cbn [may]. split; [auto|]. intros [[_ H]|(_ & vs & [] & _)]. exact H.
    + intros t. cbn [typed]. split; [auto|]. intros [[_ H]|(vs & [] & _)]. exact H.
  - apply bind_ok in E as (k1 & E1 & E). apply bind_ok in E as (k2 & E2 & E).
    pose proof (mul_described _ _ _ _ _ _ _ _ _ D (single_described _ _ _ E1) E2) as D2.
    pose proof (IH _ _ _ _ _ D2 E) as D3. rewrite <- app_assoc in D3. cbn [map fst]. cbn [app] in D3.
    eapply described_ext; [exact D3|]. intros x Hx. split.
    + intros m. cbn [may]. rewrite in_app_iff. cbn [In]. split.
      * intros [[_ [[H1 H2]|[[<-|[]] [-> H2]]]]|(-> & ws & H1 & H2)]; [left; auto| |].
        -- right. split; [reflexivity|]. exists vs. auto.
        -- right. split; [reflexivity|]. exists ws. auto.
      * intros [[H1 H2]|(-> & ws & [H1|H1] & H2)].
        -- left. split; [auto|]. left. auto.
        -- injection H1 as <- <-. left. split; [auto|]. right. auto.
        -- right. split; [reflexivity|]. exists ws. auto.
    + intros t. cbn [typed]. rewrite in_app_iff. cbn [In]. split.
      * intros [[_ [[H1 H2]|[[<-|[]] H2]]]|(ws & H1 & H2)]; [left; auto| |].
        -- right. exists vs. auto.
        -- right. exists ws. auto.
      * intros [[H1 H2]|(ws & [H1|H1] & H2)].
        -- left. split; [auto|]. left. auto.
        -- injection H1 as <- <-. left. split; [auto|]. right. auto.
        -- right. exists ws. auto.
Qed.

Lemma from_dict_described d k : from_dict W d = Ok k ->
  described k (map fst d) (fun m => may m (EDict d)) (fun c => typed (EDict d) c).
Proof.
  intros E. unfold from_dict in E. destruct d as [|[c vs] d]; cbn [map fst snd] in E.
  - eapply described_ext; [apply from_tuples_described; exact E|]. intros c [].
  - apply bind_ok in E as (k1 & E1 & E).
    pose proof (mul_all_described _ _ _ _ _ _ (single_described _ _ _ E1) E) as D. cbn [app] in D.
    cbn [map fst]. eapply described_ext; [exact D|]. intros x Hx. split.
    + intros m. cbn [may In]. split.
      * intros [[[<-|[]] [-> H2]]|(-> & ws & H1 & H2)]; (split; [reflexivity|]); eauto.
      * intros (-> & ws & [H1|H1] & H2); [injection H1 as <- <-; left; auto|right; eauto].
    + intros t. cbn [typed In]. split.
      * intros [[[<-|[]] H2]|(ws & H1 & H2)]; eauto.
      * intros (ws & [H1|H1] & H2); [injection H1 as <- <-; left; auto|right; eauto].
Qed.

(** *** All expressions *)
Lemma join_agree l r c : checked (Join l r) -> In c (columns l) -> In c (columns r) ->
  forall t, attr (of_type t) l c <-> attr (of_type t) r c.
Proof.
  intros C Hl Hr t. destruct (mkJoin_types l r C) as (sl & sr & El & Er & Ty). destruct C as (_ & Cl & Cr).
  destruct (schema_spec l Cl) as (sl' & El' & (_ & _ & Al)). destruct (schema_spec r Cr) as (sr' & Er' & (_ & _ & Ar)).
  assert (sl' = sl) as -> by congruence. assert (sr' = sr) as -> by congruence.
  destruct (Ty c) as (a & b & Ea & Eb & Tab). { unfold join_columns. apply common_In. auto. }
  rewrite <- (proj1 (Al c a Ea) t), <- (proj1 (Ar c b Eb) t), Tab. tauto.
Qed.

Theorem eval_described e : concrete e = true -> frames_ok e -> forall k, eval W e = Ok k ->
  described k (kcols e) (fun m => may m e) (fun c => typed e c).
Proof.
  induction e as [ts cs|d|p d|cs|a IHa b IHb|a IHa b IHb|a IHa b IHb|a IHa b IHb|a IHa cs|a IHa cnd];
    intros Cn Fo k E; cbn [concrete frames_ok eval kcols] in *; try discriminate;
    try (apply andb_true_iff in Cn as [Cna Cnb]; destruct Fo as [Foa Fob];
         apply bind_ok in E as (x & Ex & E); apply bind_ok in E as (y & Ey & E);
         specialize (IHa Cna Foa x Ex); specialize (IHb Cnb Fob y Ey)).
  - apply from_tuples_described, E.
  - apply from_dict_described, E.
  - unfold from_dataframe in E. apply bind_ok in E as (o & Eo & E).
    assert (o = FromDF p d) as ->.
    { unfold mkFromDF in Eo. apply bind_ok in Eo as (u1 & _ & Eo). apply bind_ok in Eo as (u2 & _ & Eo). congruence. }
    assert (Co : checked (FromDF p d)) by exact Fo.
    eapply described_ext; [apply (mkKeySet_described _ _ _ Co E)|]. intros c Hc.
    apply dget_some in Hc as (x & Hx).
    assert (U : forall z, In (c, z) d -> z = x).
    { intros z Hz. apply (In_dget c z d Fo) in Hz. congruence. }
    split.
    + intros m. cbn [attr may]. unfold has_mark. split.
      * intros H. exists x. split; [apply dget_In, Hx|apply H, Hx].
      * intros (z & Hz & Mz) w Hw. rewrite (U z Hz) in Mz. congruence.
    + intros t. cbn [attr typed]. unfold of_type. split.
      * intros H. exists x. split; [apply dget_In, Hx|apply H, Hx].
      * intros (z & Hz & Mz) w Hw. rewrite (U z Hz) in Mz. congruence.
  - eapply described_ext; [eapply mul_described; eassumption|]. intros c Hc. split; intros; cbn [may typed]; tauto.
  - (* join *)
    unfold ks_join in E. rewrite (described_plan _ _ _ _ IHa), (described_plan _ _ _ _ IHb) in E.
    destruct IHa as (Ca & Ea & Na & Ka & Aa), IHb as (Cb & Eb & Nb & Kb & Ab).
    apply bind_ok in E as (o & Eo & E). cbn [orb mkEither] in E.
    destruct (checked_mkJoin _ _ _ Ca Cb Eo) as [-> Co].
    rewrite Ea, Eb, first_occurrences_app in E by assumption.
    eapply described_ext; [eapply mkKeySet_described; eassumption|]. intros c Hc.
    assert (Hc' : In c (kcols a) \/ In c (kcols b)).
    { apply in_app_or in Hc as [Hc|Hc]; [auto|]. apply filter_In in Hc as [Hc _]. auto. }
    assert (Oa : forall P, ~ In c (kcols a) -> attr P (ks_tree x) c) by (intros P H; apply attr_out; rewrite Ka; exact H).
    assert (Ob : forall P, ~ In c (kcols b) -> attr P (ks_tree y) c) by (intros P H; apply attr_out; rewrite Kb; exact H).
    split.
    + intros m. cbn [attr may]. split.
      * intros [H1 H2]. split; intros H; [apply (proj1 (Aa c H)), H1|apply (proj1 (Ab c H)), H2].
      * intros [H1 H2]. split.
        -- destruct (in_dec string_dec c (kcols a)) as [H|H]; [apply (proj1 (Aa c H)), H1, H|apply Oa, H].
        -- destruct (in_dec string_dec c (kcols b)) as [H|H]; [apply (proj1 (Ab c H)), H2, H|apply Ob, H].
    + intros t. cbn [attr typed]. split.
      * intros [H1 H2]. destruct Hc' as [H|H]; [left|right]; (split; [exact H|]); [apply (proj2 (Aa c H)), H1|apply (proj2 (Ab c H)), H2].
      * assert (Ag : In c (kcols a) -> In c (kcols b) -> forall t, attr (of_type t) (ks_tree x) c <-> attr (of_type t) (ks_tree y) c).
        { intros H1 H2. apply join_agree; [exact Co|apply Ka, H1|apply Kb, H2]. }
        intros [[H H1]|[H H1]].
        -- apply (proj2 (Aa c H)) in H1. split; [exact H1|].
           destruct (in_dec string_dec c (kcols b)) as [H'|H']; [apply (Ag H H'), H1|apply Ob, H'].
        -- apply (proj2 (Ab c H)) in H1. split; [|exact H1].
           destruct (in_dec string_dec c (kcols a)) as [H'|H']; [apply (Ag H' H), H1|apply Oa, H'].
  - (* union *)
    unfold ks_union in E. rewrite (described_plan _ _ _ _ IHa), (described_plan _ _ _ _ IHb) in E.
    destruct IHa as (Ca & Ea & Na & Ka & Aa), IHb as (Cb & Eb & Nb & Kb & Ab).
    apply bind_ok in E as (o & Eo & E). cbn [orb mkEither] in E.
    destruct (checked_mkUnion _ _ _ Ca Cb Eo) as [-> Co]. rewrite Ea in E.
    apply mkUnion_ok in Eo as (_ & S).
    eapply described_ext; [eapply mkKeySet_described; eassumption|]. intros c Hc.
    assert (Hb : In c (kcols b)) by (apply Kb, S, Ka, Hc).
    destruct (Aa c Hc) as [A1 A2], (Ab c Hb) as [B1 B2].
    split; [intros m; cbn [attr may]; rewrite A1, B1; tauto|intros t; cbn [attr typed]; rewrite A2, B2; tauto].
  - (* subtract *)
    unfold ks_sub in E. rewrite (described_plan _ _ _ _ IHa) in E.
    destruct IHa as (Ca & Ea & Na & Ka & Aa), IHb as (Cb & Eb & Nb & Kb & Ab).
    apply bind_ok in E as (o & Eo & E). cbn [mkEither] in E.
    destruct (checked_mkSubtract _ _ _ Ca Cb Eo) as [-> Co]. rewrite Ea in E.
    eapply described_ext; [eapply mkKeySet_described; eassumption|]. intros c Hc.
    destruct (Aa c Hc) as [A1 A2]. split; [intros m; cbn [attr may]; apply A1|intros t; cbn [attr typed]; apply A2].
  - (* projection *)
    apply bind_ok in E as (x & Ex & E). specialize (IHa Cn Fo x Ex).
    unfold ks_project in E. rewrite (described_plan _ _ _ _ IHa) in E.
    destruct IHa as (Ca & Ea & Na & Ka & Aa).
    apply bind_ok in E as (u & _ & E). apply bind_ok in E as (o & Eo & E).
    destruct (checked_mkProject _ _ _ Ca Eo) as [-> Co]. apply mkProject_ok in Eo as (_ & _ & Sub).
    eapply described_ext; [eapply mkKeySet_described; eassumption|]. intros c Hc.
    destruct (Aa c (proj1 (Ka c) (Sub c Hc))) as [A1 A2].
    split; [intros m; cbn [attr may]; rewrite <- A1; tauto|intros t; cbn [attr typed]; rewrite <- A2; tauto].
  - (* filter *)
    apply bind_ok in E as (x & Ex & E). specialize (IHa Cn Fo x Ex).
    unfold ks_filter in E. rewrite (described_plan _ _ _ _ IHa) in E.
    destruct IHa as (Ca & Ea & Na & Ka & Aa).
    apply bind_ok in E as (o & Eo & E). cbn [mkEither] in E.
    destruct (checked_mkFilter _ _ _ Ca Eo) as [-> Co]. rewrite Ea in E.
    eapply described_ext; [eapply mkKeySet_described; eassumption|]. intros c Hc.
    destruct (Aa c Hc) as [A1 A2]. split; [intros m; cbn [attr may]; apply A1|intros t; cbn [attr typed]; apply A2].
Qed.

(** What schema() shows. *)
Theorem eval_schema e k : concrete e = true -> frames_ok e -> eval W e = Ok k ->
  exists s, ks_schema k = Ok s /\ dkeys s = kcols e
  /\ forall c d, dget c s = Some d ->
       (forall t, cd_type d = t <-> typed e c t) /\ (forall m, marked m d = true <-> may m e c).
Proof.
  intros Cn Fo E. destruct (eval_described e Cn Fo k E) as (C & Ek & N & K & A).
  destruct (schema_spec _ C) as (s & Es & (Ns & Ks & As)). unfold ks_schema. rewrite Es, Ek. cbn [bind].
  assert (X : exists ds, mapM (fun c => let* d := dget_res c s in Ok (c, d)) (kcols e) = Ok ds /\ map fst ds = kcols e
              /\ forall n v, In (n, v) ds -> dget n s = Some v).
  { assert (Sub : forall y, In y (kcols e) -> In y (dkeys s)) by (intros y Hy; apply Ks, K, Hy).
    clear - Sub. induction (kcols e) as [|y cs IHc]; [exists []; split; [reflexivity|split; [reflexivity|intros n v []]]|].
    destruct IHc as (ds & Ed & Fd & Gd). { intros z Hz. apply Sub. right. exact Hz. }
    destruct (proj1 (dget_some y s) (Sub y (or_introl eq_refl))) as (d & Hd).
    exists ((y, d) :: ds). cbn [mapM]. unfold dget_res at 1. rewrite Hd. cbn [bind]. rewrite Ed. cbn [bind map fst].
    split; [reflexivity|]. split; [f_equal; exact Fd|]. intros n v [H|H]; [injection H as <- <-; exact Hd|apply Gd, H]. }
  destruct X as (ds & Ed & Fd & Gd). rewrite Ed. cbn [bind].
  assert (dict_of ds = ds) as -> by (apply dict_of_NoDup; rewrite Fd; exact N).
  exists ds. split; [reflexivity|]. split; [exact Fd|]. intros c d Hd.
  pose proof (Gd c d (dget_In _ _ _ Hd)) as Hs.
  assert (Hc : In c (kcols e)). { rewrite <- Fd. apply in_map_iff. exists (c, d). split; [reflexivity|apply dget_In, Hd]. }
  destruct (As c d Hs) as [T M]. destruct (A c Hc) as [A1 A2].
  split; [intros t; rewrite T; apply A2|intros m; rewrite M; apply A1].
Qed.

(** ** Keys fit the schema *)
(** A cell fits a descriptor: null only where nulls are allowed, otherwise of the type. *)
Definition fits (d : coldesc) (v : value) : Prop :=
  (v = VNull /\ cd_null d = true) \/ value_type v = Some (cd_type d).
(** Dataframes contain what their schemas say. *)
Fixpoint frames_fit (e : kexpr) : Prop :=
  match e with
  | ETuples _ _ | EDict _ | EDetect _ => True
  | EFrame p d => forall r, In r (content W p) -> Forall2 (fun q v => fits (snd q) v) d r
  | EMul a b | EJoin a b | EUnion a b | ESub a b => frames_fit a /\ frames_fit b
  | EProj a _ | EFilter a _ => frames_fit a
  end.

Variable D : oracle.
(** Only what the documentation says, no code. *)
Lemma key_fits e : concrete e = true -> frames_ok e -> frames_fit e -> forall k, eval W e = Ok k ->
  forall key, kden W D e key -> forall c, In c (kcols e) ->
  (key c = VNull -> may MNull e c) /\ (forall t, value_type (key c) = Some t -> typed e c t).
Proof.
  induction e as [ts cs|d|p d|cs|a IHa b IHb|a IHa b IHb|a IHa b IHb|a IHa b IHb|a IHa cs|a IHa cnd];
    intros Cn Fo Ff k E key Hk c Hc; cbn [concrete frames_ok frames_fit eval kcols kden may typed] in *; try discriminate;
    try (apply andb_true_iff in Cn as [Cna Cnb]; destruct Fo as [Foa Fob]; destruct Ff as [Ffa Ffb];
         apply bind_ok in E as (x & Ex & E); apply bind_ok in E as (y & Ey & E);
         pose proof (eval_described a Cna Foa x Ex) as Da; pose proof (eval_described b Cnb Fob y Ey) as Db;
         specialize (IHa Cna Foa Ffa x Ex); specialize (IHb Cnb Fob Ffb y Ey)).
  - destruct Hk as [->|Hk]; [destruct Hc|]. apply In_nth_error in Hc as (i & Hi).
    assert (V : nth i (map key cs) VNull = key c).
    { apply nth_error_nth. apply map_nth_error, Hi. }
    split; [intros H; split; [reflexivity|]|intros t H]; exists i; (split; [exact Hi|]); exists (map key cs); (split; [exact Hk|]); congruence.
  - apply in_map_iff in Hc as ([c' vs] & <- & Hv). cbn [fst]. specialize (Hk c' vs Hv).
    split; [intros H; split; [reflexivity|]; exists vs; split; [exact Hv|congruence]|intros t H; exists vs; split; [exact Hv|eauto]].
  - destruct Hk as [->|Hk]; [destruct Hc|]. specialize (Ff _ Hk). clear E Fo Hk.
    induction d as [|[n z] d IH]; [destruct Hc|]. cbn [map fst] in *. inversion Ff as [|? ? ? ? F1 F2]; subst. cbn [snd] in F1.
    destruct Hc as [<-|Hc].
    + split.
      * intros H. exists z. split; [left; reflexivity|]. destruct F1 as [[_ F1]|F1]; [exact F1|]. rewrite H in F1. discriminate.
      * intros t H. exists z. split; [left; reflexivity|]. destruct F1 as [[F1 _]|F1]; [rewrite F1 in H; discriminate|congruence].
    + destruct (IH F2 Hc) as [I1 I2]. split.
      * intros H. destruct (I1 H) as (w & Hw & M). exists w. split; [right; exact Hw|exact M].
      * intros t H. destruct (I2 t H) as (w & Hw & M). exists w. split; [right; exact Hw|exact M].
  - destruct Hk as [H1 H2]. apply in_app_or in Hc as [Hc|Hc].
    + destruct (IHa key H1 c Hc) as [I1 I2]. split; [intros H; left; auto|intros t H; left; auto].
    + destruct (IHb key H2 c Hc) as [I1 I2]. split; [intros H; right; auto|intros t H; right; auto].
  - destruct Hk as [H1 H2]. split.
    + intros H. split; intros Hx; [apply (IHa key H1 c Hx), H|apply (IHb key H2 c Hx), H].
    + intros t H. apply in_app_or in Hc as [Hc|Hc].
      * left. split; [exact Hc|]. apply (IHa key H1 c Hc), H.
      * apply filter_In in Hc as [Hc _]. right. split; [exact Hc|]. apply (IHb key H2 c Hc), H.
  - unfold ks_union in E. apply bind_ok in E as (o & Eo & _). apply mkUnion_ok in Eo as (_ & S).
    assert (Hb : In c (kcols b)). { apply Db, S, Da, Hc. }
    destruct Hk as [Hk|Hk].
    + destruct (IHa key Hk c Hc) as [I1 I2]. split; [intros H; left; auto|intros t H; left; auto].
    + destruct (IHb key Hk c Hb) as [I1 I2]. split; [intros H; right; auto|intros t H; right; auto].
  - destruct Hk as [H1 _]. exact (IHa key H1 c Hc).
  - apply bind_ok in E as (x & Ex & E). pose proof (eval_described a Cn Fo x Ex) as Da.
    unfold ks_project in E. apply bind_ok in E as (u & _ & E). apply bind_ok in E as (o & Eo & _).
    apply mkProject_ok in Eo as (_ & _ & Sub).
    assert (Ha : In c (kcols a)) by (apply Da, Sub, Hc).
    destruct Hk as (k' & Hk & Eq). rewrite (Eq c Hc). exact (IHa Cn Fo Ff x Ex k' Hk c Ha).
  - apply bind_ok in E as (x & Ex & E). destruct Hk as [H1 _]. exact (IHa Cn Fo Ff x Ex key H1 c Hc).
Qed.

Lemma usable_frames e : usable W D e -> frames_ok e.
Proof. induction e; cbn [usable frames_ok]; intuition. Qed.

Theorem rows_fit e k f s : usable W D e -> concrete e = true -> frames_fit e -> kcols e <> [] ->
  eval W e = Ok k -> ks_dataframe W k = Ok f -> ks_schema k = Ok s ->
  fcols f = dkeys s
  /\ forall r, In r (frows f) -> Forall2 (fun q v => fits (snd q) v) s r.
Proof.
  intros U Cn Ff Nz E Ef Es. pose proof (usable_frames e U) as Fo.
  destruct (eval_dataframe W D e k U E Cn Nz) as (f' & Ef' & Fc & Len & _ & Keys).
  assert (f' = f) as -> by congruence.
  destruct (eval_schema e k Cn Fo E) as (s' & Es' & Ks & As). assert (s' = s) as -> by congruence.
  split; [congruence|]. intros r Hr.
  assert (N : NoDup (kcols e)) by (destruct (eval_described e Cn Fo k E) as (_ & _ & N & _); exact N).
  pose proof (map_rget (kcols e) r N (Len r Hr)) as Er.
  assert (Hk : kden W D e (rget (kcols e) r)) by (apply Keys; rewrite Er; exact Hr).
  assert (G : forall l : dict coldesc, (forall q, In q l -> In q s) ->
     Forall2 (fun q v => fits (snd q) v) l (map (rget (kcols e) r) (dkeys l))).
  { induction l as [|[n d] l IH]; intros Sub; cbn [dkeys map]; constructor.
    - cbn [fst snd].
      assert (Hd : dget n s = Some d). { apply In_dget; [rewrite Ks; exact N|apply Sub; left; reflexivity]. }
      assert (Hn : In n (kcols e)). { rewrite <- Ks. apply in_map_iff. exists (n, d). split; [reflexivity|apply Sub; left; reflexivity]. }
      destruct (As n d Hd) as [T M]. destruct (key_fits e Cn Fo Ff k E _ Hk n Hn) as [I1 I2]. unfold fits.
      destruct (rget (kcols e) r n) as [|z|q|z|z|z] eqn:V.
      + left. split; [reflexivity|]. exact (proj2 (M MNull) (I1 eq_refl)).
      + right. rewrite (proj2 (T _) (I2 _ eq_refl)). reflexivity.
      + right. rewrite (proj2 (T _) (I2 _ eq_refl)). reflexivity.
      + right. rewrite (proj2 (T _) (I2 _ eq_refl)). reflexivity.
      + right. rewrite (proj2 (T _) (I2 _ eq_refl)). reflexivity.
      + right. rewrite (proj2 (T _) (I2 _ eq_refl)). reflexivity.
    - apply IH. intros q Hq. apply Sub. right. exact Hq. }
  specialize (G s (fun q H => H)). rewrite Ks, Er in G. exact G.
Qed.
End Api.
