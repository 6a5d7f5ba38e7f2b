(** The rows a transformation produces belong to the domain it declares. *)
From Coq Require Import String Bool Arith ZArith QArith Qcanon Lia Permutation List.
From Verif Require Import Prelude Value Rows Constraints ConstraintsSpec ConstraintsProofs Schema SchemaProofs
  Query Transform TransformSpec.
Import ListNotations.
Local Open Scope string_scope.
Local Open Scope nat_scope.

(** *** Rows *)
Lemma getv_dget c r v : dget c r = Some v -> getv c r = v.
Proof. unfold getv. intros ->. reflexivity. Qed.

Lemma dkeys_select cols r : dkeys (select_row cols r) = cols.
Proof. unfold select_row, dkeys. rewrite map_map. simpl. apply map_id. Qed.

Lemma dget_keyed {V} (f : string -> V) cols c : In c cols -> dget c (map (fun k => (k, f k)) cols) = Some (f c).
Proof.
  induction cols as [|k l IH]; intros I; [destruct I|]. simpl.
  destruct (String.eqb_spec c k) as [Ec|N]; [subst; reflexivity|].
  apply IH. destruct I as [E|I]; [congruence|exact I].
Qed.
Lemma getv_select cols r c : In c cols -> getv c (select_row cols r) = getv c r.
Proof. intros I. apply getv_dget. unfold select_row. apply (dget_keyed (fun c => getv c r)), I. Qed.

Lemma in_dkeys {V} k (d : dict V) : In k (dkeys d) <-> exists v, dget k d = Some v.
Proof.
  rewrite <- dmem_In. unfold dmem. destruct (dget k d) as [v|]; split; intros H.
  - exists v; reflexivity.
  - reflexivity.
  - discriminate.
  - destruct H; discriminate.
Qed.

Lemma getv_merge c r e : NoDup (dkeys e) -> getv c (merge r e) = if dmem c e then getv c e else getv c r.
Proof. intros N. unfold getv, dmem. rewrite dget_merge by exact N. destruct (dget c e); reflexivity. Qed.

Lemma in_dkeys_merge {V} (d e : dict V) c : NoDup (dkeys e) -> In c (dkeys (merge d e)) <-> In c (dkeys d) \/ In c (dkeys e).
Proof.
  intros N. rewrite !in_dkeys. rewrite dget_merge by exact N. destruct (dget c e) eqn:E; split; intros H; eauto.
  - destruct H as [H|[? H]]; [exact H|discriminate].
Qed.

(** Entry by entry. *)
Lemma row_by_entries (d : dict coredesc) (r : rec) :
  NoDup (dkeys d) ->
  Forall2 (fun p q => fst p = fst q /\ core_cell_ok (snd p) (snd q) = true) d r -> row_in_domain d r.
Proof.
  intros N F.
  assert (K : dkeys r = dkeys d).
  { clear N. induction F as [|[a b] [a' b'] d' r' [E _] _ IH]; [reflexivity|]. cbn [fst] in E. subst a'. cbn [dkeys map fst]. f_equal. exact IH. }
  split; [rewrite K; exact N|]. split; [rewrite K; tauto|].
  intros c k Hc. clear N K. revert Hc.
  induction F as [|[a b] [a' b'] d' r' [E C] _ IH]; intros Hc; [discriminate|].
  cbn in E, C. subst a'. unfold getv. cbn in Hc |- *.
  destruct (String.eqb_spec c a) as [Ec|Ne]; [|exact (IH Hc)]. congruence.
Qed.

Lemma row_entries (d : dict coredesc) r c k : row_in_domain d r -> dget c d = Some k ->
  core_cell_ok k (getv c r) = true /\ In c (dkeys r).
Proof. intros (_ & K & C) H. split; [exact (C c k H)|]. apply K, in_dkeys. eauto. Qed.

Lemma same_keys_perm (a b : list string) : NoDup a -> NoDup b -> (forall c, In c a <-> In c b) -> Permutation a b.
Proof. intros. apply NoDup_Permutation; assumption. Qed.

(** *** Descriptors *)
Lemma cell_core d v : core_cell_ok (to_core d) v = cell_ok d v.
Proof. unfold to_core, cell_ok. destruct (cd_type d), v as [| |[]| | |]; reflexivity. Qed.
Lemma to_core_nullable d : core_nullable (to_core d) = to_core (nullable d).
Proof. unfold to_core, nullable. cbn. destruct (cd_type d); reflexivity. Qed.
Lemma of_core_ok k : exists d, of_core k = Ok d /\ to_core d = k.
Proof. destruct k; cbn; eexists; split; reflexivity. Qed.
Lemma core_nullable_weak k v : core_cell_ok k v = true -> core_cell_ok (core_nullable k) v = true.
Proof. destruct k, v as [| |[]| | |]; simpl; auto. Qed.
Lemma core_nullable_null k : core_cell_ok (core_nullable k) VNull = true.
Proof. destruct k; reflexivity. Qed.
Lemma core_and_ok a b v : core_same_type a b = true ->
  core_cell_ok a v = true -> core_cell_ok b v = true -> core_cell_ok (core_and a b) v = true.
Proof.
  destruct a, b; try discriminate; intros _; destruct v as [| |[]| | |]; simpl; intros A B; subst; try discriminate; try reflexivity;
  rewrite A, B; reflexivity.
Qed.

(** *** Domains and rows of the single transformations *)
Definition tab_ok (t : vtab) : Prop := NoDup (dkeys (v_dom t)) /\ in_domain (v_dom t) (v_rows t).

Lemma in_domain_sub d t t' : in_domain d t -> incl t' t -> in_domain d t'.
Proof. intros H I r R. apply H, I, R. Qed.

(** Renaming keys by a function that is injective on them. *)
Lemma dget_rekey {V} (f : string -> string) (d : dict V) c :
  NoDup (map f (dkeys d)) -> In c (dkeys d) -> dget (f c) (map (fun p => (f (fst p), snd p)) d) = dget c d.
Proof.
  induction d as [|[k v] d IH]; intros N I; [destruct I|]. cbn in *. inversion N as [|? ? N1 N2]; subst.
  destruct (String.eqb_spec c k) as [Ec|Ne].
  - subst. rewrite String.eqb_refl. reflexivity.
  - destruct I as [I|I]; [congruence|].
    destruct (String.eqb_spec (f c) (f k)) as [Ef|Nf].
    + exfalso. apply N1. rewrite <- Ef. apply in_map, I.
    + apply IH; assumption.
Qed.
Lemma dkeys_rekey {V} (f : string -> string) (d : dict V) :
  dkeys (map (fun p => (f (fst p), snd p)) d) = map f (dkeys d).
Proof. unfold dkeys. rewrite !map_map. reflexivity. Qed.

Lemma rename_ok m d t : NoDup (dkeys d) -> NoDup (map (renamed m) (dkeys d)) -> in_domain d t ->
  dict_of (map (fun p => (renamed m (fst p), snd p)) d) = map (fun p => (renamed m (fst p), snd p)) d
  /\ NoDup (dkeys (map (fun p => (renamed m (fst p), snd p)) d))
  /\ in_domain (map (fun p => (renamed m (fst p), snd p)) d) (map (rename_row m) t).
Proof.
  intros Nd Nm D. pose proof (dkeys_rekey (renamed m) d) as K.
  split; [apply dict_of_NoDup; exact (eq_ind_r (@NoDup string) Nm K)|]. split; [rewrite K; exact Nm|].
  intros r' I. apply in_map_iff in I. destruct I as (r & <- & I). destruct (D r I) as (Nr & Kr & Cr).
  assert (P : Permutation (dkeys r) (dkeys d)) by (apply same_keys_perm; assumption).
  assert (Nmr : NoDup (map (renamed m) (dkeys r))).
  { apply (Permutation_NoDup (l := map (renamed m) (dkeys d))); [|exact Nm]. apply Permutation_map. symmetry; exact P. }
  assert (K' : dkeys (rename_row m r) = map (renamed m) (dkeys r)) by (unfold rename_row; apply dkeys_rekey).
  split; [rewrite K'; exact Nmr|]. split.
  - intros c. rewrite K, K'. rewrite !in_map_iff. split; intros (x & E & Ix); exists x; (split; [exact E|]); apply Kr; exact Ix.
  - intros c k Hc.
    assert (Ic : In c (map (renamed m) (dkeys d))) by (rewrite <- K; apply in_dkeys; eauto).
    apply in_map_iff in Ic. destruct Ic as (x & <- & Ix).
    rewrite dget_rekey in Hc by assumption.
    unfold getv, rename_row. rewrite dget_rekey by (try assumption; apply Kr; exact Ix).
    apply (Cr x k Hc).
Qed.

Lemma mapM_keyed {B} (f : string -> res B) cols d :
  mapM (fun c => let* x := f c in Ok (c, x)) cols = Ok d ->
  dkeys d = cols /\ forall c k, In (c, k) d -> f c = Ok k.
Proof.
  intros M. apply mapM_ok_Forall2 in M.
  induction M as [|c [c' k] cols d H M IH]; [split; [reflexivity|intros ? ? []]|].
  apply bind_ok in H. destruct H as (x & H1 & H2). injection H2 as <- <-. destruct IH as [IH1 IH2].
  split; [cbn [dkeys map fst]; f_equal; exact IH1|]. intros c0 k0 [E|I]; [injection E as <- <-; exact H1|]. apply IH2, I.
Qed.
Lemma mapM_keyed_ok {B} (f : string -> res B) cols :
  (forall c, In c cols -> exists k, f c = Ok k) -> exists d, mapM (fun c => let* x := f c in Ok (c, x)) cols = Ok d.
Proof.
  induction cols as [|c cols IH]; intros H; [exists []; reflexivity|]. simpl.
  destruct (H c) as (k & E); [left; reflexivity|]. rewrite E. simpl.
  destruct IH as (d & ->); [intros; apply H; right; assumption|]. simpl. eauto.
Qed.

Lemma select_ok cols d t d' : NoDup cols -> in_domain d t ->
  mapM (fun c => match dget c d with Some k => Ok (c, k) | None => Err ValueError end) cols = Ok d' ->
  NoDup (dkeys d') /\ in_domain d' (map (select_row cols) t)
  /\ dkeys d' = cols /\ forall c, In c cols -> dget c d' = dget c d.
Proof.
  intros N D M.
  assert (M' : mapM (fun c => let* x := (match dget c d with Some k => Ok k | None => Err ValueError end) in Ok (c, x)) cols = Ok d').
  { rewrite <- M. clear. induction cols as [|c l IH]; [reflexivity|]. simpl. rewrite IH. destruct (dget c d); reflexivity. }
  apply mapM_keyed in M'. destruct M' as [K E]. rewrite K.
  assert (E' : forall c k, dget c d' = Some k -> dget c d = Some k).
  { intros c k H. apply dget_In in H. apply E in H. destruct (dget c d); [congruence|discriminate]. }
  split; [exact N|]. split; [|split; [reflexivity|]].
  - intros r' I. apply in_map_iff in I. destruct I as (r & <- & I). destruct (D r I) as (Nr & Kr & Cr).
    unfold row_in_domain. rewrite dkeys_select, K. split; [exact N|]. split; [tauto|].
    intros c k Hc. rewrite getv_select by (rewrite <- K; apply in_dkeys; eauto). apply (Cr c k), E', Hc.
  - intros c I. rewrite <- K in I. apply in_dkeys in I. destruct I as (k & Hk). rewrite Hk. symmetry. apply E', Hk.
Qed.

Lemma dkeys_new_core new : dkeys (new_core new) = dkeys (sc_cols new).
Proof. unfold new_core. apply (dkeys_map_val (fun d => core_nullable (to_core d))). Qed.
Lemma dget_new_core new c : dget c (new_core new) = option_map (fun d => core_nullable (to_core d)) (dget c (sc_cols new)).
Proof. unfold new_core. apply (dget_map_val (fun d => core_nullable (to_core d))). Qed.

Lemma new_cells_ok new o : NoDup (dkeys (sc_cols new)) -> returns new o -> row_in_domain (new_core new) (new_cells new o).
Proof.
  intros N R. unfold row_in_domain, new_cells. rewrite dkeys_select, dkeys_new_core. split; [exact N|]. split; [tauto|].
  intros c k H. rewrite dget_new_core in H. destruct (dget c (sc_cols new)) as [d|] eqn:E; [|discriminate]. injection H as <-.
  rewrite getv_select by (apply in_dkeys; eauto). rewrite to_core_nullable, cell_core. apply (R c d E).
Qed.

Lemma merge_row_ok (d e : dict coredesc) r s :
  NoDup (dkeys e) -> row_in_domain d r -> row_in_domain e s -> row_in_domain (merge d e) (merge r s).
Proof.
  intros Ne (Nr & Kr & Cr) (Ns & Ks & Cs). split; [apply NoDup_merge, Nr|]. split.
  - intros c. rewrite !in_dkeys_merge by assumption. rewrite Kr, Ks. tauto.
  - intros c k. rewrite dget_merge by exact Ne. rewrite getv_merge by exact Ns.
    destruct (dget c e) as [k'|] eqn:E.
    + intros H. injection H as <-.
      assert (dmem c s = true) as -> by (apply dmem_In, Ks, in_dkeys; eauto). apply (Cs c k' E).
    + intros H. assert (dmem c s = false) as ->.
      { destruct (dmem c s) eqn:M; [|reflexivity]. apply dmem_In, Ks, in_dkeys in M. destruct M; congruence. }
      apply (Cr c k H).
Qed.

Lemma mapped_ok new aug d r o : NoDup (dkeys (sc_cols new)) -> row_in_domain d r -> returns new o ->
  row_in_domain (mapped_domain new aug d) (if aug then merge r (new_cells new o) else new_cells new o).
Proof.
  intros N R Ro. pose proof (new_cells_ok new o N Ro) as C. unfold mapped_domain. destruct aug; [|exact C].
  apply merge_row_ok; [rewrite dkeys_new_core; exact N|exact R|exact C].
Qed.
Lemma mapped_NoDup new aug d : NoDup (dkeys (sc_cols new)) -> NoDup (dkeys d) -> NoDup (dkeys (mapped_domain new aug d)).
Proof.
  intros N Nd. unfold mapped_domain. destruct aug; [apply NoDup_merge, Nd|]. rewrite dkeys_new_core. exact N.
Qed.

(** Changing cells of some columns, column by column. *)
Lemma at_columns_dget cols f d c :
  dget c (at_columns cols f d) = option_map (fun k => if smem c cols then f k else k) (dget c d).
Proof.
  unfold at_columns. induction d as [|[k x] d IH]; [reflexivity|]. simpl.
  destruct (String.eqb_spec c k) as [Ec|Ne]; [subst; reflexivity|]. exact IH.
Qed.
Lemma at_columns_dkeys cols f d : dkeys (at_columns cols f d) = dkeys d.
Proof. unfold at_columns, dkeys. rewrite map_map. reflexivity. Qed.

Lemma cellwise_ok (d d' : dict coredesc) (g : string -> value -> value) r :
  dkeys d' = dkeys d -> row_in_domain d r ->
  (forall c k k', dget c d = Some k -> dget c d' = Some k' -> core_cell_ok k (getv c r) = true ->
     core_cell_ok k' (g c (getv c r)) = true) ->
  row_in_domain d' (map (fun p => (fst p, g (fst p) (snd p))) r).
Proof.
  intros K (Nr & Kr & Cr) H.
  assert (K' : dkeys (map (fun p => (fst p, g (fst p) (snd p))) r) = dkeys r) by (unfold dkeys; rewrite map_map; reflexivity).
  split; [rewrite K'; exact Nr|]. split; [rewrite K', K; exact Kr|].
  intros c k' Hk.
  assert (Ic : In c (dkeys d)) by (rewrite <- K; apply in_dkeys; eauto).
  assert (Ir : In c (dkeys r)) by (apply Kr, Ic).
  apply in_dkeys in Ic. destruct Ic as (k & Hd).
  assert (E : getv c (map (fun p => (fst p, g (fst p) (snd p))) r) = g c (getv c r)).
  { clear - Ir. unfold getv. induction r as [|[a x] r IH]; [destruct Ir|]. simpl.
    destruct (String.eqb_spec c a) as [Ec|Ne]; [subst; reflexivity|].
    apply IH. destruct Ir as [E|I]; [cbn in E; congruence|exact I]. }
  rewrite E. apply (H c k k' Hd Hk). apply (Cr c k Hd).
Qed.

Lemma drop_rows_In p cols t r : In r (drop_rows p cols t) <->
  In r t /\ forall c, In c cols -> p (getv c r) = false.
Proof.
  unfold drop_rows. rewrite filter_In, negb_true_iff. apply and_iff_compat_l.
  induction cols as [|c l IH]; simpl; [split; [intros _ ? []|reflexivity]|].
  rewrite orb_false_iff, IH. split.
  - intros [A B] x [<-|I]; auto.
  - intros H. split; auto.
Qed.

(** *** Joins *)
Lemma matches_spec on r s : matches on r s = true <-> forall c, In c on -> getv c r = getv c s.
Proof.
  unfold matches. rewrite forallb_forall. split; intros H c I.
  - apply value_eqb_eq, H, I.
  - apply value_eqb_eq, H, I.
Qed.
Lemma matches_refl on r : matches on r r = true.
Proof. apply matches_spec. reflexivity. Qed.

Lemma suffixed_name_eq {B} (other : dict B) suffix c : suffixed other suffix c = suffixed_name (dkeys other) suffix c.
Proof.
  unfold suffixed, suffixed_name.
  destruct (dmem c other) eqn:E, (smem c (dkeys other)) eqn:E'; try reflexivity.
  - apply dmem_In in E. apply smem_false in E'. contradiction.
  - apply smem_In, dmem_In in E'. congruence.
Qed.

Lemma others_dkeys {V} on (d : dict V) : others on (dkeys d) = dkeys (filter (fun p => negb (smem (fst p) on)) d).
Proof.
  unfold others, dkeys. induction d as [|[k v] d IH]; [reflexivity|]. simpl. destruct (smem k on); simpl; rewrite IH; reflexivity.
Qed.

Lemma has_dup_false l : has_dup l = false <-> NoDup l.
Proof.
  unfold has_dup. rewrite negb_false_iff, Nat.eqb_eq. split; intros H.
  - induction l as [|x l IH]; [constructor|]. simpl in H.
    destruct (in_dec string_dec x l) as [I|I].
    + pose proof (NoDup_incl_length (NoDup_nodup string_dec l) (fun y (h : In y (nodup string_dec l)) => proj1 (nodup_In string_dec l y) h)) as L.
      simpl in H. lia.
    + simpl in H. constructor; [exact I|]. apply IH. lia.
  - rewrite nodup_fixed_point by exact H. reflexivity.
Qed.

(** What join_domain returns. *)
Inductive join_dom_spec (on : list string) (left : bool) (l r out : dict coredesc) : Prop :=
| JD (joined : dict coredesc)
    (JK : dkeys joined = on)
    (JC : forall c k, In (c, k) joined ->
       exists a b, dget c l = Some a /\ dget c r = Some b /\ core_same_type a b = true
         /\ k = if left then a else core_and a b)
    (JO : out = (joined
              ++ map (fun p => (suffixed r "_left" (fst p), snd p)) (filter (fun p => negb (smem (fst p) on)) l)
              ++ map (fun p => (suffixed l "_right" (fst p), if left then core_nullable (snd p) else snd p))
                     (filter (fun p => negb (smem (fst p) on)) r))%list)
    (JN : NoDup (dkeys out))
    (Jon : on <> []).
Lemma join_domain_spec on left l r out : join_domain on left l r = Ok out -> join_dom_spec on left l r out.
Proof.
  unfold join_domain. intros H. apply bind_ok in H. destruct H as (u & R0 & H). destruct u. apply raise_if_ok in R0.
  apply bind_ok in H. destruct H as (j & M & H). apply bind_ok in H. destruct H as (u & R & H). destruct u.
  apply raise_if_ok in R. injection H as H.
  assert (M' : mapM (fun c => let* x := (match dget c l, dget c r with
                | Some a, Some b => let* _ := raise_if (negb (core_same_type a b)) ValueError in
                                    Ok (if left then a else core_and a b)
                | _, _ => Err ValueError end) in Ok (c, x)) on = Ok j).
  { rewrite <- M. clear. induction on as [|c on IH]; [reflexivity|]. cbn [mapM]. rewrite IH.
    destruct (dget c l), (dget c r); try reflexivity.
    destruct (negb (core_same_type c0 c1)); reflexivity. }
  apply mapM_keyed in M'. destruct M' as [K C].
  refine (JD _ _ _ _ _ j K _ (eq_sym H) _ _).
  - intros c k I. apply C in I. destruct (dget c l) as [a|]; [|discriminate]. destruct (dget c r) as [b|]; [|discriminate].
    apply bind_ok in I. destruct I as (u & R1 & I). destruct u. apply raise_if_ok in R1. apply negb_false_iff in R1.
    injection I as <-. exists a, b. auto.
  - rewrite <- H. apply has_dup_false, R.
  - intros ->. discriminate.
Qed.

Lemma Forall2_map_in {A B C} (P : B -> C -> Prop) (f : A -> B) (g : A -> C) l :
  (forall x, In x l -> P (f x) (g x)) -> Forall2 P (map f l) (map g l).
Proof.
  induction l as [|x l IH]; intros H; constructor; [apply H; left; reflexivity|]. apply IH. intros; apply H; right; assumption.
Qed.

Lemma join_row_ok on left l r out x y :
  NoDup (dkeys l) -> NoDup (dkeys r) ->
  join_dom_spec on left l r out -> row_in_domain l x ->
  match y with Some s => row_in_domain r s /\ matches on x s = true | None => left = true end ->
  row_in_domain out (join_row on (dkeys l) (dkeys r) x y).
Proof.
  intros Nl Nr [j K C Eo N _] X Y. apply row_by_entries; [exact N|]. rewrite Eo. unfold join_row.
  apply Forall2_app; [|apply Forall2_app].
  - rewrite <- K. unfold dkeys. rewrite map_map.
    rewrite <- (map_id j) at 1. apply Forall2_map_in. intros [c k] I. cbn [fst snd]. split; [reflexivity|].
    destruct (C c k I) as (a & b & A & B & T & ->).
    pose proof (proj2 (proj2 X) c a A) as Ca.
    destruct left; [exact Ca|]. destruct y as [s|]; [|discriminate]. destruct Y as [S M].
    apply core_and_ok; [exact T|exact Ca|]. rewrite (proj1 (matches_spec on x s) M c).
    + apply (proj2 (proj2 S) c b B).
    + rewrite <- K. exact (in_map fst _ _ I).
  - rewrite others_dkeys. unfold dkeys at 2. rewrite map_map. apply Forall2_map_in. intros [c k] I. cbn [fst snd].
    split; [apply suffixed_name_eq|]. apply filter_In in I. destruct I as [I _].
    apply (proj2 (proj2 X) c k). apply In_dget; assumption.
  - rewrite others_dkeys. unfold dkeys at 2. rewrite map_map. apply Forall2_map_in. intros [c k] I. cbn [fst snd].
    split; [apply suffixed_name_eq|]. apply filter_In in I. destruct I as [I _].
    destruct y as [s|].
    + destruct Y as [S _]. pose proof (proj2 (proj2 S) c k (In_dget c k r Nr I)) as Ck.
      destruct left; [apply core_nullable_weak, Ck|exact Ck].
    + subst left. apply core_nullable_null.
Qed.

Lemma inner_join_ok on l r out x y :
  NoDup (dkeys l) -> NoDup (dkeys r) -> join_dom_spec on false l r out ->
  in_domain l x -> in_domain r y -> in_domain out (inner_join on (dkeys l) (dkeys r) x y).
Proof.
  intros Nl Nr J X Y o I. unfold inner_join in I. apply in_flat_map in I. destruct I as (a & Ia & I).
  apply in_map_iff in I. destruct I as (b & <- & Ib). apply filter_In in Ib. destruct Ib as [Ib M].
  apply (join_row_ok on false l r out a (Some b)); auto.
Qed.
Lemma left_join_ok on l r out x y :
  NoDup (dkeys l) -> NoDup (dkeys r) -> join_dom_spec on true l r out ->
  in_domain l x -> in_domain r y -> in_domain out (left_join on (dkeys l) (dkeys r) x y).
Proof.
  intros Nl Nr J X Y o I. unfold left_join in I. apply in_flat_map in I. destruct I as (a & Ia & I).
  destruct (filter (matches on a) y) as [|b0 bs] eqn:F.
  - destruct I as [<-|[]]. apply (join_row_ok on true l r out a None); auto.
  - apply in_map_iff in I. destruct I as (b & <- & Ib). rewrite <- F in Ib. apply filter_In in Ib. destruct Ib as [Ib M].
    apply (join_row_ok on true l r out a (Some b)); auto.
Qed.

Lemma truncate_side_incl O s on t : incl (truncate_side O s on t) t.
Proof.
  destruct s as [n|]; simpl; intros r I.
  - apply (sub_table_In _ (isort (ole O) t)) in I; [|apply keep_first_sub].
    eapply Permutation_in; [apply isort_perm|exact I].
  - apply filter_In in I. tauto.
Qed.

(** *** Special values *)
Definition view (k : coredesc) : coldesc :=
  match k with
  | CFloat n a i => {| cd_type := DECIMAL; cd_null := n; cd_nan := a; cd_inf := i |}
  | CInt n => {| cd_type := INTEGER; cd_null := n; cd_nan := false; cd_inf := false |}
  | CString n => {| cd_type := VARCHAR; cd_null := n; cd_nan := false; cd_inf := false |}
  | CDate n => {| cd_type := DATE; cd_null := n; cd_nan := false; cd_inf := false |}
  | CTimestamp n => {| cd_type := TIMESTAMP; cd_null := n; cd_nan := false; cd_inf := false |}
  end.
Lemma of_core_view k : of_core k = Ok (view k).
Proof. destruct k; reflexivity. Qed.
Lemma to_core_view k : to_core (view k) = k.
Proof. destruct k; reflexivity. Qed.
Lemma core_to_analytics_view d : core_to_analytics d = Ok (map (fun p => (fst p, view (snd p))) d).
Proof. unfold core_to_analytics. apply mapM_total. intros p _. rewrite of_core_view. reflexivity. Qed.

Definition strict (k : coredesc) : coredesc := core_not_inf (core_not_nan (core_not_null k)).
Lemma strict_ok k k' v : core_same_type k k' = true -> core_cell_ok (strict k) v = true -> core_cell_ok k' v = true.
Proof. destruct k, k'; try discriminate; intros _; destruct v as [| |[]| | |]; simpl; auto; discriminate. Qed.

Lemma refine_domain cols f d t :
  in_domain d t ->
  (forall r c k, In r t -> In c cols -> dget c d = Some k -> core_cell_ok k (getv c r) = true ->
     core_cell_ok (f k) (getv c r) = true) ->
  in_domain (at_columns cols f d) t.
Proof.
  intros D H r I. destruct (D r I) as (N & K & C). split; [exact N|]. split; [rewrite at_columns_dkeys; exact K|].
  intros c k' Hc. rewrite at_columns_dget in Hc. destruct (dget c d) as [k|] eqn:E; [|discriminate].
  injection Hc as <-. pose proof (C c k E) as Ck. destruct (smem c cols) eqn:S; [|exact Ck].
  apply smem_In in S. apply (H r c k I S E Ck).
Qed.

Lemma map_pair_ext (h : string -> value -> value) (g : string * value -> string * value) (r : rec) :
  (forall p, g p = (fst p, h (fst p) (snd p))) -> map g r = map (fun p => (fst p, h (fst p) (snd p))) r.
Proof. intros H. apply map_ext. exact H. Qed.

Definition null_cell (m : dict value) (c : string) (x : value) : value :=
  match x, dget c m with VNull, Some v => v | _, _ => x end.
Definition nan_cell (m : dict value) (c : string) (x : value) : value :=
  match x, dget c m with VFloat FNan, Some v => v | _, _ => x end.
Definition inf_cell (m : dict (fnum * fnum)) (c : string) (x : value) : value :=
  match x, dget c m with
  | VFloat FNInf, Some b => VFloat (fst b) | VFloat FPInf, Some b => VFloat (snd b) | _, _ => x end.
Lemma replace_nulls_cells m r : replace_nulls m r = map (fun p => (fst p, null_cell m (fst p) (snd p))) r.
Proof.
  apply map_pair_ext. intros [c x]. unfold null_cell. cbn [fst snd].
  destruct x; try reflexivity. destruct (dget c m); reflexivity.
Qed.
Lemma replace_nans_cells m r : replace_nans m r = map (fun p => (fst p, nan_cell m (fst p) (snd p))) r.
Proof.
  apply map_pair_ext. intros [c x]. unfold nan_cell. cbn [fst snd].
  destruct x as [| |[]| | |]; try reflexivity. destruct (dget c m); reflexivity.
Qed.
Lemma replace_infs_cells m r : replace_infs m r = map (fun p => (fst p, inf_cell m (fst p) (snd p))) r.
Proof.
  apply map_pair_ext. intros [c x]. unfold inf_cell. cbn [fst snd].
  destruct x as [| |[]| | |]; try reflexivity; destruct (dget c m); reflexivity.
Qed.

Lemma replace_nulls_ok m d t :
  in_domain d t -> (forall c v k, dget c m = Some v -> dget c d = Some k -> core_cell_ok (strict k) v = true) ->
  in_domain (at_columns (dkeys m) core_not_null d) (map (replace_nulls m) t).
Proof.
  intros D M r' I. apply in_map_iff in I. destruct I as (r & <- & I). rewrite replace_nulls_cells.
  apply (cellwise_ok d); [apply at_columns_dkeys|exact (D r I)|].
  intros c k k' Hk Hk' C. rewrite at_columns_dget, Hk in Hk'. cbn in Hk'. injection Hk' as <-.
  unfold null_cell. destruct (dget c m) as [v|] eqn:E.
  - assert (smem c (dkeys m) = true) as -> by (apply smem_In, in_dkeys; eauto).
    pose proof (M c v k E Hk) as S.
    destruct (getv c r) as [| |[]| | |]; try (destruct k; exact C).
    apply (strict_ok k); [destruct k; reflexivity|exact S].
  - assert (smem c (dkeys m) = false) as -> by (apply smem_false, dget_None, E).
    destruct (getv c r); exact C.
Qed.
Lemma replace_nans_ok m d t :
  in_domain d t -> (forall c v k, dget c m = Some v -> dget c d = Some k -> core_cell_ok (strict k) v = true) ->
  in_domain (at_columns (dkeys m) core_not_nan d) (map (replace_nans m) t).
Proof.
  intros D M r' I. apply in_map_iff in I. destruct I as (r & <- & I). rewrite replace_nans_cells.
  apply (cellwise_ok d); [apply at_columns_dkeys|exact (D r I)|].
  intros c k k' Hk Hk' C. rewrite at_columns_dget, Hk in Hk'. cbn in Hk'. injection Hk' as <-.
  unfold nan_cell. destruct (dget c m) as [v|] eqn:E.
  - assert (smem c (dkeys m) = true) as -> by (apply smem_In, in_dkeys; eauto).
    pose proof (M c v k E Hk) as S.
    destruct (getv c r) as [| |[]| | |]; try (destruct k; exact C).
    apply (strict_ok k); [destruct k; reflexivity|exact S].
  - assert (smem c (dkeys m) = false) as -> by (apply smem_false, dget_None, E).
    destruct (getv c r) as [| |[]| | |]; exact C.
Qed.
Lemma replace_infs_ok m d t :
  in_domain d t -> (forall c b, dget c m = Some b -> finite_f (fst b) = true /\ finite_f (snd b) = true) ->
  in_domain (at_columns (dkeys m) core_not_inf d) (map (replace_infs m) t).
Proof.
  intros D M r' I. apply in_map_iff in I. destruct I as (r & <- & I). rewrite replace_infs_cells.
  apply (cellwise_ok d); [apply at_columns_dkeys|exact (D r I)|].
  intros c k k' Hk Hk' C. rewrite at_columns_dget, Hk in Hk'. cbn in Hk'. injection Hk' as <-.
  unfold inf_cell. destruct (dget c m) as [[lo hi]|] eqn:E.
  - assert (smem c (dkeys m) = true) as -> by (apply smem_In, in_dkeys; eauto).
    destruct (M c (lo, hi) E) as [F1 F2]. cbn [fst snd] in *.
    destruct (getv c r) as [| |[]| | |]; try (destruct k; exact C).
    + destruct k; try discriminate C. destruct hi; try discriminate. reflexivity.
    + destruct k; try discriminate C. destruct lo; try discriminate. reflexivity.
  - assert (smem c (dkeys m) = false) as -> by (apply smem_false, dget_None, E).
    destruct (getv c r) as [| |[]| | |]; exact C.
Qed.

Lemma dget_filter_keys {V} (p : string * V -> bool) (d : dict V) c v :
  NoDup (dkeys d) -> dget c (filter p d) = Some v -> dget c d = Some v /\ p (c, v) = true.
Proof.
  intros N H. apply dget_In, filter_In in H. destruct H as [I P]. split; [apply In_dget; assumption|exact P].
Qed.
Lemma NoDup_filter_keys {V} (p : string * V -> bool) (d : dict V) : NoDup (dkeys d) -> NoDup (dkeys (filter p d)).
Proof.
  intros N. induction d as [|[k v] d IH]; [constructor|]. cbn in N. inversion N as [|? ? N1 N2]; subst. simpl.
  destruct (p (k, v)); [|apply IH, N2]. simpl. constructor; [|apply IH, N2].
  intros I. apply N1. unfold dkeys in *. apply in_map_iff in I. destruct I as (x & E & I). apply filter_In in I.
  apply in_map_iff. exists x. tauto.
Qed.

Lemma default_strict k : core_cell_ok (strict k) (default_value (cd_type (view k))) = true.
Proof. destruct k; reflexivity. Qed.

(** Every value that visit_replace_null_and_nan uses has its column's type and is not
    special. *)
Lemma get_replace_with_ok rw d g m :
  NoDup (dkeys d) -> NoDup (dkeys rw) ->
  (forall c v, In (c, v) rw -> valid_replacement v = true) ->
  (forall c v k, In (c, v) rw -> dget c d = Some k -> fits v k) ->
  get_replace_with rw (map (fun p => (fst p, view (snd p))) d) g = Ok m ->
  NoDup (dkeys m)
  /\ (forall c v k, dget c m = Some v -> dget c d = Some k -> core_cell_ok (strict k) v = true)
  /\ (rw <> [] -> dkeys m = dkeys rw)
  /\ (rw = [] -> forall c, In c (dkeys m) <->
        exists k, dget c d = Some k /\ is_col g c = false /\ cd_null (view k) || cd_nan (view k) = true).
Proof.
  intros N Nrw V F H. unfold get_replace_with in H. destruct rw as [|p0 rw'] eqn:Erw.
  - clear V F. apply bind_ok in H. destruct H as (s & _ & H). injection H as <-.
    set (an := map (fun p => (fst p, view (snd p))) d) in *.
    assert (Nan : NoDup (dkeys an)) by (unfold an; rewrite dkeys_map_val; exact N).
    set (P := fun p : string * coldesc => negb (is_col g (fst p)) && (cd_null (snd p) || cd_nan (snd p))) in *.
    assert (K : dkeys (map (fun p => (fst p, default_value (cd_type (snd p)))) (filter P an)) = dkeys (filter P an))
      by (apply (dkeys_map_val (fun x => default_value (cd_type x)))).
    split; [rewrite K; apply NoDup_filter_keys, Nan|]. split; [|split].
    + intros c v k Hm Hd.
      rewrite (dget_map_val (fun x => default_value (cd_type x))) in Hm.
      destruct (dget c (filter P an)) as [x|] eqn:E; [|discriminate]. injection Hm as <-.
      apply dget_filter_keys in E; [|exact Nan]. destruct E as [E _]. unfold an in E.
      rewrite dget_map_val, Hd in E. injection E as <-. apply default_strict.
    + intros C. congruence.
    + intros _ c. rewrite K, in_dkeys. split.
      * intros (x & E). apply dget_filter_keys in E; [|exact Nan]. destruct E as [E Q]. unfold an in E.
        rewrite dget_map_val in E. destruct (dget c d) as [k|]; [|discriminate]. injection E as <-. exists k.
        split; [reflexivity|]. unfold P in Q. cbn [fst snd] in Q. apply andb_prop in Q. destruct Q as [Q1 Q2].
        split; [apply negb_true_iff, Q1|exact Q2].
      * intros (k & E & Q1 & Q2). exists (view k). apply In_dget; [apply NoDup_filter_keys, Nan|]. apply filter_In. split.
        -- apply dget_In. unfold an. rewrite dget_map_val, E. reflexivity.
        -- unfold P. cbn [fst snd]. rewrite Q1, Q2. reflexivity.
  - assert (Hne : rw <> []) by (rewrite Erw; discriminate). rewrite <- Erw in *. clear Erw. apply bind_ok in H. destruct H as (u & _ & H).
    apply mapM_ok_Forall2 in H.
    assert (K : dkeys m = dkeys rw).
    { clear -H. induction H as [|[c v] [c' v'] a b H _ IH]; [reflexivity|]. cbn [fst snd] in H.
      assert (c' = c) as ->.
      { destruct (dget c (map (fun p => (fst p, view (snd p))) d)); [|discriminate]. destruct (is_decimal c0).
        - apply bind_ok in H. destruct H as (? & _ & H). congruence.
        - congruence. }
      cbn [dkeys map fst]. f_equal. exact IH. }
    split; [rewrite K; exact Nrw|]. split; [|split].
    + intros c v k Hm Hd. apply dget_In in Hm.
      assert (S : exists v0, In (c, v0) rw /\
                 (match dget c (map (fun p => (fst p, view (snd p))) d) with
                  | Some d0 => if is_decimal d0 then let* v := float_value v0 in Ok (c, v) else Ok (c, v0)
                  | None => Err KeyError end) = Ok (c, v)).
      { clear -H Hm K. revert Hm. induction H as [|[a x] [a' x'] l l' H _ IH]; intros Hm; [destruct Hm|].
        cbn [dkeys map fst] in K. injection K as Ea K. subst a'. destruct Hm as [E|I].
        - injection E as -> ->. exists x. split; [left; reflexivity|exact H].
        - destruct (IH K I) as (v0 & I0 & E0). exists v0. split; [right; exact I0|exact E0]. }
      destruct S as (v0 & I0 & E). rewrite dget_map_val, Hd in E. cbn [option_map] in E.
      pose proof (V c v0 I0) as Vv. pose proof (F c v0 k I0 Hd) as Fv.
      destruct k; cbn in E.
      * apply bind_ok in E. destruct E as (v1 & E1 & E2). injection E2 as ->.
        destruct v0 as [|z|f|s|dd|tt]; cbn in Fv, E1; try contradiction.
        -- injection E1 as <-. reflexivity.
        -- injection E1 as <-. destruct f; try discriminate. reflexivity.
      * injection E as ->. destruct v; try contradiction; reflexivity.
      * injection E as ->. destruct v; try contradiction; reflexivity.
      * injection E as ->. destruct v; try contradiction; reflexivity.
      * injection E as ->. destruct v; try contradiction; reflexivity.
    + intros _. exact K.
    + contradiction.
Qed.
