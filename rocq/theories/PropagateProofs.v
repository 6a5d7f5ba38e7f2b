(** Constraints recorded for derived tables hold of their data (C15). *)
From Coq Require Import String Bool Arith ZArith QArith Qcanon Lia Permutation List.
From Verif Require Import Prelude Value Rows Constraints ConstraintsSpec ConstraintsProofs ConstraintsStab Schema SchemaProofs
  Query Transform TransformSpec TransformConform TransformVisit TransformAgree TransformIds QueryProofs.
Import ListNotations.
Local Open Scope string_scope.
Local Open Scope nat_scope.

(** *** Tables obtained row by row *)
Lemma flat_map_filter_in {A B} (p : B -> bool) (q : A -> bool) (F : A -> list B) l :
  (forall x y, In x l -> In y (F x) -> p y = q x) -> filter p (flat_map F l) = flat_map F (filter q l).
Proof.
  intros H. apply filter_flat_map_comm.
  - intros x I Q. split; [reflexivity|]. intros y Iy. rewrite (H x y I Iy). exact Q.
  - intros x I Q y Iy. rewrite (H x y I Iy). exact Q.
Qed.
Lemma flat_map_length_le {A B} (F : A -> list B) k l :
  (forall x, In x l -> length (F x) <= k) -> length (flat_map F l) <= length l * k.
Proof.
  induction l as [|x l IH]; simpl; intros H; [lia|]. rewrite app_length.
  pose proof (H x (or_introl eq_refl)). specialize (IH (fun y I => H y (or_intror I))). lia.
Qed.

Section Expand.
Variables (i i' : string) (t : table) (F : rec -> table).
Hypothesis Hid : forall r o, In r t -> In o (F r) -> getv i' o = getv i r.

Lemma rows_of_expand v : rows_of i' v (flat_map F t) = flat_map F (rows_of i v t).
Proof.
  unfold rows_of. apply flat_map_filter_in. intros r o Ir Io. unfold has_value. rewrite (Hid r o Ir Io). reflexivity.
Qed.
Lemma expand_rows m k : (forall r, In r t -> length (F r) <= k) ->
  satisfies i (MaxRowsPerID m) t -> satisfies i' (MaxRowsPerID (m * k)) (flat_map F t).
Proof.
  intros K S v. rewrite rows_of_expand. specialize (S v).
  pose proof (flat_map_length_le F k (rows_of i v t)) as L. 
  assert (length (flat_map F (rows_of i v t)) <= length (rows_of i v t) * k).
  { apply L. intros r I. apply K. unfold rows_of in I. apply filter_In in I. apply I. }
  nia.
Qed.
Lemma expand_groups g g' m (h : value -> value) :
  (forall r o, In r t -> In o (F r) -> getv g' o = h (getv g r)) ->
  satisfies i (MaxGroupsPerID g m) t -> satisfies i' (MaxGroupsPerID g' m) (flat_map F t).
Proof.
  intros G S v vs N I.
  (* choose a preimage for each value *)
  assert (C : exists us, NoDup us /\ map h us = vs /\ forall u, In u us -> exists r, In r (rows_of i v t) /\ getv g r = u).
  { clear S. induction vs as [|x vs IH].
    - exists []. split; [constructor|]. split; [reflexivity|]. intros ? [].
    - inversion N as [|? ? Nx Nv]; subst. destruct IH as (us & Nu & Mu & Iu); [exact Nv|intros; apply I; right; assumption|].
      destruct (I x (or_introl eq_refl)) as (o & Io & Go). rewrite rows_of_expand in Io. apply in_flat_map in Io.
      destruct Io as (r & Ir & Io). exists (getv g r :: us).
      assert (It : In r t) by (unfold rows_of in Ir; apply filter_In in Ir; apply Ir).
      pose proof (G r o It Io) as E. rewrite Go in E. split; [|split].
      + constructor; [|exact Nu]. intros In'. apply Nx. rewrite <- Mu, E. apply in_map, In'.
      + cbn [map]. rewrite Mu, <- E. reflexivity.
      + intros u [<-|Iu']; [exists r; auto|apply Iu, Iu']. }
  destruct C as (us & Nu & Mu & Iu). specialize (S v us Nu Iu). rewrite <- Mu, map_length. exact S.
Qed.
Lemma expand_group_rows g g' m k : (forall r, In r t -> length (F r) <= k) ->
  (forall r o, In r t -> In o (F r) -> getv g' o = getv g r) ->
  satisfies i (MaxRowsPerGroupPerID g m) t -> satisfies i' (MaxRowsPerGroupPerID g' (m * k)) (flat_map F t).
Proof.
  intros K G S v u. rewrite rows_of_expand.
  assert (E : filter (has_value g' u) (flat_map F (rows_of i v t)) = flat_map F (filter (has_value g u) (rows_of i v t))).
  { apply flat_map_filter_in. intros r o Ir Io. unfold has_value. rewrite (G r o); [reflexivity| |exact Io].
    unfold rows_of in Ir. apply filter_In in Ir. apply Ir. }
  rewrite E. specialize (S v u).
  assert (length (flat_map F (filter (has_value g u) (rows_of i v t))) <= length (filter (has_value g u) (rows_of i v t)) * k).
  { apply flat_map_length_le. intros r I. apply filter_In in I. destruct I as [I _]. unfold rows_of in I. apply filter_In in I. apply K, I. }
  nia.
Qed.
End Expand.

Lemma map_flat_map {A B} (f : A -> B) l : map f l = flat_map (fun x => [f x]) l.
Proof. induction l as [|x l IH]; [reflexivity|]. simpl. rewrite IH. reflexivity. Qed.

(** One row in, one row out. *)
Lemma map_sat i i' g g' (f : rec -> rec) t c c' :
  (forall r, In r t -> getv i' (f r) = getv i r) ->
  (forall r, In r t -> getv g' (f r) = getv g r) ->
  match c with
  | MaxRowsPerID m => c' = MaxRowsPerID m
  | MaxGroupsPerID x m => x = g /\ c' = MaxGroupsPerID g' m
  | MaxRowsPerGroupPerID x m => x = g /\ c' = MaxRowsPerGroupPerID g' m
  end -> satisfies i c t -> satisfies i' c' (map f t).
Proof.
  intros Hi Hg Hc S. rewrite map_flat_map.
  assert (Hid : forall r o, In r t -> In o [f r] -> getv i' o = getv i r) by (intros r o Ir [<-|[]]; apply Hi, Ir).
  assert (Hgg : forall r o, In r t -> In o [f r] -> getv g' o = getv g r) by (intros r o Ir [<-|[]]; apply Hg, Ir).
  destruct c as [m|x m|x m].
  - subst c'. rewrite <- (Nat.mul_1_r m). apply (expand_rows i i' t (fun r => [f r]) Hid); [intros; cbn; lia|exact S].
  - destruct Hc as [-> ->]. apply (expand_groups i i' t (fun r => [f r]) Hid g g' m (fun v => v)); [exact Hgg|exact S].
  - destruct Hc as [-> ->]. rewrite <- (Nat.mul_1_r m).
    apply (expand_group_rows i i' t (fun r => [f r]) Hid g g' m 1); [intros; cbn; lia|exact Hgg|exact S].
Qed.

Lemma flat_map_app_perm {A B} (f g : A -> list B) l :
  Permutation (flat_map f l ++ flat_map g l)%list (flat_map (fun x => f x ++ g x)%list l).
Proof.
  induction l as [|x l IH]; [constructor|]. simpl. rewrite <- !app_assoc. apply Permutation_app_head.
  rewrite <- IH. rewrite !app_assoc. apply Permutation_app_tail. apply Permutation_app_comm.
Qed.
Lemma flat_map_nil {A B} (l : list A) : flat_map (fun _ => @nil B) l = [].
Proof. induction l; [reflexivity|assumption]. Qed.
Lemma flat_map_swap {A B C} (F : A -> B -> list C) l r :
  Permutation (flat_map (fun x => flat_map (F x) r) l) (flat_map (fun y => flat_map (fun x => F x y) l) r).
Proof.
  induction l as [|x l IH].
  - simpl. rewrite flat_map_nil. constructor.
  - cbn [flat_map]. rewrite IH. apply flat_map_app_perm.
Qed.
Lemma map_filter_flat {A B} (p : A -> bool) (f : A -> B) l :
  map f (filter p l) = flat_map (fun x => if p x then [f x] else []) l.
Proof. induction l as [|x l IH]; [reflexivity|]. simpl. destruct (p x); simpl; rewrite IH; reflexivity. Qed.
Lemma flat_if_length {A B} (p : A -> bool) (f : A -> B) l :
  length (flat_map (fun x => if p x then [f x] else []) l) = length (filter p l).
Proof. rewrite <- map_filter_flat. apply map_length. Qed.

(** *** Joined rows *)
Lemma getv_join_col_left on lc rc x y g : NoDup (dkeys (join_row on lc rc x y)) -> ~ In g on -> In g lc ->
  getv (suffixed_name rc "_left" g) (join_row on lc rc x y) = getv g x.
Proof.
  intros N Non Il. apply getv_dget. apply In_dget; [exact N|]. unfold join_row. apply in_or_app. right. apply in_or_app. left.
  apply in_map_iff. exists g. split; [reflexivity|]. apply filter_In. split; [exact Il|]. apply negb_true_iff, smem_false, Non.
Qed.
Lemma getv_join_col_right on lc rc x y g : NoDup (dkeys (join_row on lc rc x (Some y))) -> ~ In g on -> In g rc ->
  getv (suffixed_name lc "_right" g) (join_row on lc rc x (Some y)) = getv g y.
Proof.
  intros N Non Il. apply getv_dget. apply In_dget; [exact N|]. unfold join_row. apply in_or_app. right. apply in_or_app. right.
  apply in_map_iff. exists g. split; [reflexivity|]. apply filter_In. split; [exact Il|]. apply negb_true_iff, smem_false, Non.
Qed.

Section Track.
Variables (W : world) (l2 : bool) (cat : catalog) (data : dict vtab).
Hypothesis IN : inputs_ok l2 cat data.
Hypothesis HOLD : constraints_hold cat data.
Notation sch := (schema_of (w_cond_ok W) cat).

Definition tracked (t : vtab) (cs : list constraint) : Prop :=
  forall i, v_place t = PKeys i ->
    satisfies_all i cs (v_rows t) /\ forall c g, In c cs -> grouping c = Some g -> In g (dkeys (v_dom t)).

Lemma tracked_simplify t cs : tracked t cs -> tracked t (simplify cs).
Proof.
  intros T i P. destruct (T i P) as [S G]. split; [apply simplify_sat, S|]. intros c g I. apply G, (simplify_incl cs), I.
Qed.
(** Fewer rows, same columns. *)
Lemma tracked_sub t cs rows d : tracked t cs -> sub_table rows (v_rows t) -> dkeys d = dkeys (v_dom t) ->
  tracked {| v_dom := d; v_coll := v_coll t; v_place := v_place t; v_rows := rows |} cs.
Proof.
  intros T Sb K i P. cbn [v_place v_rows v_dom] in *. destruct (T i P) as [S G]. split.
  - intros c I. eapply satisfies_sub; [exact Sb|apply S, I].
  - rewrite K. exact G.
Qed.

Lemma overlapping_spec on (l r : dict coredesc) g : In g (dkeys l) ->
  smem g (overlapping on l r) = negb (smem g on) && smem g (dkeys r).
Proof.
  intros I. unfold overlapping, common_columns. destruct (negb (smem g on) && smem g (dkeys r)) eqn:E.
  - apply andb_prop in E. destruct E as [E1 E2]. apply smem_In, filter_In. split; [|exact E1]. apply filter_In.
    split; [exact I|apply dmem_In, smem_In, E2].
  - apply smem_false. intros I'. apply filter_In in I'. destruct I' as [I' E1]. apply filter_In in I'. destruct I' as [_ E2].
    apply dmem_In, smem_In in E2. rewrite E1, E2 in E. discriminate.
Qed.
Lemma overlapping_spec_r on (l r : dict coredesc) g : In g (dkeys r) ->
  smem g (overlapping on l r) = negb (smem g on) && smem g (dkeys l).
Proof.
  intros I. unfold overlapping, common_columns. destruct (negb (smem g on) && smem g (dkeys l)) eqn:E.
  - apply andb_prop in E. destruct E as [E1 E2]. apply smem_In, filter_In. split; [|exact E1]. apply filter_In.
    split; [apply smem_In, E2|apply dmem_In, I].
  - apply smem_false. intros I'. apply filter_In in I'. destruct I' as [I' E1]. apply filter_In in I'. destruct I' as [E2 _].
    apply smem_In in E2. rewrite E1, E2 in E. discriminate.
Qed.

(** What by_stability returns for a constraint of a table whose rows are each replaced by
    at most [k] rows. *)
Lemma by_stability_sound i t F stab over suffix c c' :
  (forall r o, In r t -> In o (F r) -> getv i o = getv i r) ->
  (forall k, stab = Some k -> forall r, In r t -> length (F r) <= k) ->
  (forall g, grouping c = Some g -> forall r o, In r t -> In o (F r) ->
     getv (if smem g over then String.append g suffix else g) o = getv g r) ->
  satisfies i c t -> In c' (by_stability stab over suffix c) ->
  satisfies i c' (flat_map F t)
  /\ grouping c' = option_map (fun g => if smem g over then String.append g suffix else g) (grouping c).
Proof.
  intros Hi Hk Hg S I. destruct c as [m|g m|g m]; cbn [by_stability] in I.
  - destruct stab as [[|k]|]; try contradiction. destruct I as [<-|[]]. split; [|reflexivity].
    apply (expand_rows i i t F Hi); [apply Hk; reflexivity|exact S].
  - destruct I as [<-|[]]. split; [|reflexivity]. apply (expand_groups i i t F Hi g _ m (fun v => v)); [apply Hg; reflexivity|exact S].
  - destruct stab as [[|k]|]; try contradiction. destruct I as [<-|[]]. split; [|reflexivity].
    apply (expand_group_rows i i t F Hi g _ m (Datatypes.S k)); [apply Hk; reflexivity|apply Hg; reflexivity|exact S].
Qed.

Lemma list_max_ge l x : In x l -> x <= list_max l.
Proof.
  pose proof (proj1 (list_max_le l (list_max l)) (Nat.le_refl _)) as H. rewrite Forall_forall in H. apply H.
Qed.
(** A private row matches at most [public_stability] public rows. *)
Lemma public_matches on x pub : length (filter (matches on x) pub) <= public_stability on pub.
Proof.
  destruct (filter (matches on x) pub) as [|y l] eqn:E; [simpl; lia|].
  assert (Iy : In y (filter (matches on x) pub)) by (rewrite E; left; reflexivity).
  apply filter_In in Iy. destruct Iy as [Iy M].
  assert (Same : forall z, matches on x z = matches on y z).
  { intros z. destruct (matches on y z) eqn:E1.
    - apply matches_spec. intros c Ic. rewrite (proj1 (matches_spec on x y) M c Ic). apply (proj1 (matches_spec on y z) E1 c Ic).
    - apply not_true_iff_false in E1. apply not_true_iff_false. intros E2. apply E1. apply matches_spec. intros c Ic.
      rewrite <- (proj1 (matches_spec on x y) M c Ic). apply (proj1 (matches_spec on x z) E2 c Ic). }
  rewrite <- E, (filter_ext _ _ Same). unfold public_stability. apply list_max_ge.
  apply in_map_iff. exists y. auto.
Qed.

(** A row of one side matches at most [max_join_stability] rows of the other. *)
Lemma find_rows_In cs n : find_rows cs = Some n -> In (MaxRowsPerID n) cs.
Proof. induction cs as [|c cs IH]; cbn; [discriminate|]. destruct c; intros H; [injection H as ->; left; reflexivity| |]; right; apply IH, H. Qed.
Lemma list_min_in l m : list_min m l = m \/ In (list_min m l) l.
Proof.
  unfold list_min. revert m. induction l as [|x l IH]; intros m; [left; reflexivity|]. cbn [fold_left].
  destruct (IH (Nat.min m x)) as [E|I]; [|right; right; exact I]. rewrite E.
  destruct (Nat.min_dec m x) as [-> | ->]; [left; reflexivity|right; left; reflexivity].
Qed.
Lemma join_stability_bound J cs k n : rows_bounded J cs -> find_rows cs = n -> max_join_stability J cs = Some k ->
  exists n', n = Some n' /\ n' <= k.
Proof.
  intros RB F M. unfold max_join_stability in M. rewrite F in M.
  assert (G : forall k, In k (group_bounds J cs) -> exists n', n = Some n' /\ n' <= k).
  { intros k' I. unfold group_bounds in I. apply in_flat_map in I. destruct I as (c & Ic & I). destruct c as [|g m|]; try contradiction.
    destruct (smem g J) eqn:Sg; [|contradiction]. destruct I as [<-|[]]. destruct (RB g m Ic) as (n' & Fn & L); [apply smem_In, Sg|].
    exists n'. split; [congruence|exact L]. }
  destruct n as [n'|].
  - cbn [app] in M. injection M as <-. exists n'. split; [reflexivity|].
    destruct (list_min_in (group_bounds J cs) n') as [E|I]; [lia|]. destruct (G _ I) as (n'' & E & L). injection E as <-. exact L.
  - cbn [app] in M. destruct (group_bounds J cs) as [|m l] eqn:E; [discriminate|]. injection M as <-.
    apply G. destruct (list_min_in l m) as [->|I]; [left; reflexivity|right; exact I].
Qed.
Lemma private_matches i on x r rcs k : In i on -> satisfies_all i rcs r -> rows_bounded on rcs ->
  max_join_stability on rcs = Some k -> length (filter (matches on x) r) <= k.
Proof.
  intros Ii S RB M. destruct (join_stability_bound on rcs k _ RB eq_refl M) as (n & F & L).
  pose proof (S _ (find_rows_In _ _ F) (getv i x)) as B.
  assert (Le : length (filter (matches on x) r) <= length (rows_of i (getv i x) r)).
  { unfold rows_of. clear -Ii. induction r as [|y r IH]; [simpl; lia|]. cbn [filter]. destruct (matches on x y) eqn:E.
    - assert (has_value i (getv i x) y = true) as ->; [|simpl; lia].
      apply has_value_true. symmetry. apply (proj1 (matches_spec on x y) E i Ii).
    - destruct (has_value i (getv i x) y); simpl; lia. }
  lia.
Qed.
Lemma matches_sym on x y : matches on x y = matches on y x.
Proof.
  destruct (matches on y x) eqn:E.
  - apply matches_spec. intros c I. symmetry. apply (proj1 (matches_spec on y x) E c I).
  - apply not_true_iff_false in E. apply not_true_iff_false. intros E'. apply E. apply matches_spec. intros c I. symmetry.
    apply (proj1 (matches_spec on x y) E' c I).
Qed.

Lemma visit_tracked auto q : built auto q -> promises W l2 cat data q -> finite_ids W l2 cat data q -> trackable W l2 cat data q ->
  forall s t cs, sch q = Ok s -> visit W l2 cat data q = Ok (t, cs) -> tracked t cs.
Proof.
  induction q; intros B P F K s0 t0 cs0 S H; cbn [schema_of] in S; cbn [visit] in H |- *; try discriminate H.
  - (* source *)
    unfold visit_source in H. destruct (dget source_id data) as [t|] eqn:E; [|discriminate].
    destruct (dget source_id (cat_private cat)) as [[s cs]|] eqn:E1; [|discriminate]. injection H as <- <-.
    intros i Pi. eapply HOLD; eassumption.
  - (* rename *)
    inv_ok S. inv_ok H. destruct x0 as [t cs]. destruct B as [B0 B]. destruct P as [P1 P2].
    pose proof (IHq B P1 F K x t cs E E0) as T. pose proof (visit_in_domain W l2 cat data IN auto q B P1 t cs E0) as [N D].
    pose proof (visit_id_present W l2 cat data IN q t cs E0) as IDP.
    unfold visit_rename in H. inv_ok H. injection H as <- <-. apply tracked_simplify. intros j Pj. cbn [v_place v_rows v_dom] in *.
    apply rename_place_keys in Pj. destruct Pj as (i & Pi & ->). destruct (T i Pi) as [Sat G].
    assert (Gv : forall r c, In r (v_rows t) -> In c (dkeys (v_dom t)) -> getv (renamed mapper c) (rename_row mapper r) = getv c r).
    { intros r c Ir Ic. destruct (D r Ir) as (Nr & Kr & _). unfold getv, rename_row. rewrite dget_rekey; [reflexivity| |apply Kr, Ic].
      eapply Permutation_NoDup; [apply Permutation_map; symmetry; apply (same_keys_perm (dkeys r) (dkeys (v_dom t))); assumption|].
      apply (P2 t cs E0). }
    split.
    + intros c Ic. unfold propagate_rename in Ic. apply in_map_iff in Ic. destruct Ic as (c0 & <- & Ic).
      specialize (Sat c0 Ic). pose proof (G c0) as Gc.
      eapply (map_sat i (renamed mapper i) (match grouping c0 with Some g => g | None => i end)
                (renamed mapper (match grouping c0 with Some g => g | None => i end))); [| | |exact Sat].
      * intros r Ir. apply Gv; [exact Ir|apply IDP, Pi].
      * intros r Ir. apply Gv; [exact Ir|]. destruct (grouping c0) as [g|] eqn:Eg; [apply (Gc g Ic eq_refl)|apply IDP, Pi].
      * destruct c0; cbn; auto.
    + intros c g Ic Eg. unfold propagate_rename in Ic. apply in_map_iff in Ic. destruct Ic as (c0 & <- & Ic).
      rewrite dict_of_keys, dkeys_rekey. apply in_map_iff.
      destruct c0 as [m|g0 m|g0 m]; cbn in Eg; [discriminate| |]; injection Eg as <-; exists g0; (split; [reflexivity|]);
        apply (G _ g0 Ic); reflexivity.
  - (* filter *)
    inv_ok S. inv_ok H. destruct x0 as [t cs]. destruct B as [_ B]. pose proof (IHq B P F K x t cs E E0) as T.
    injection H as <- <-. apply tracked_simplify, tracked_sub; [exact T|apply sub_table_filter|reflexivity].
  - (* select *)
    inv_ok S. inv_ok H. destruct x0 as [t cs]. destruct B as [_ B]. pose proof (IHq B P F K x t cs E E0) as T.
    unfold visit_select in H. inv_ok H. inv_ok H. injection H as <- <-. apply tracked_simplify. intros i Pi. cbn [v_place v_rows v_dom] in *.
    destruct (T i Pi) as [Sat G]. rewrite Pi in E2. cbn in E2. apply negb_false_iff, smem_In in E2.
    assert (Kx : dkeys x0 = columns).
    { clear -E1. apply mapM_ok_Forall2 in E1. induction E1 as [|c [c' k] l l' Hx _ IH]; [reflexivity|].
      destruct (dget c (v_dom t)); [|discriminate]. injection Hx as <- <-. cbn [dkeys map fst]. f_equal. exact IH. }
    assert (Gs : forall c g, In c (propagate_select columns cs) -> grouping c = Some g -> In g columns).
    { intros c g Ic Eg. unfold propagate_select in Ic. apply filter_In in Ic. destruct Ic as [_ Ic].
      destruct c; cbn in Eg; [discriminate| |]; injection Eg as <-; apply smem_In, Ic. }
    split.
    + intros c Ic. pose proof (Gs c) as Gc. specialize (Gc) with (1 := Ic). apply filter_In in Ic. destruct Ic as [Ic _].
      eapply (map_sat i i (match grouping c with Some g => g | None => i end) (match grouping c with Some g => g | None => i end));
        [| | |exact (Sat c Ic)].
      * intros r Ir. apply getv_select, E2.
      * intros r Ir. apply getv_select. destruct (grouping c) as [g|] eqn:Eg; [apply Gc; reflexivity|exact E2].
      * destruct c; cbn; auto.
    + intros c g Ic Eg. rewrite dict_of_keys, Kx. apply (Gs c g Ic Eg).
  - (* map *)
    inv_ok S. inv_ok H. destruct x0 as [t cs]. destruct B as [_ B]. destruct P as (P1 & Pn & P2). pose proof (IHq B P1 F K x t cs E E0) as T.
    unfold visit_map in H. inv_ok H. inv_ok H. injection H as <- <-. apply tracked_simplify. intros i Pi. cbn [v_place v_rows v_dom] in *.
    destruct (T i Pi) as [Sat G]. rewrite Pi in E1. cbn in E1. destruct augment; [|discriminate].
    unfold propagate_map in E2. cbn [negb andb raise_if bind] in E2. injection E2 as <-.
    assert (KA : keys_agree x t) by (eapply schema_keys_agree; eassumption).
    unfold map_schema in S. inv_ok S.
    assert (Gv : forall r c, In c (dkeys (v_dom t)) -> getv c (map_row f new true r) = getv c r).
    { intros r c Ic. eapply augmented_getv; eassumption. }
    split.
    + intros c Ic.
      eapply (map_sat i i (match grouping c with Some g => g | None => i end) (match grouping c with Some g => g | None => i end));
        [| | |exact (Sat c Ic)].
      * intros r Ir. apply Gv, (visit_id_present W l2 cat data IN q t cs E0), Pi.
      * intros r Ir. apply Gv. destruct (grouping c) as [g|] eqn:Eg; [apply (G c g Ic Eg)|apply (visit_id_present W l2 cat data IN q t cs E0), Pi].
      * destruct c; cbn; auto.
    + intros c g Ic Eg. cbn [mapped_domain]. apply in_dkeys_merge; [rewrite dkeys_new_core; exact Pn|]. left. apply (G c g Ic Eg).
  - (* flat map *)
    inv_ok S. inv_ok H. destruct x0 as [t cs]. destruct B as [_ B]. destruct P as (P1 & Pn & P2). pose proof (IHq B P1 F K x t cs E E0) as T.
    unfold visit_flat_map in H. inv_ok H. inv_ok H. injection H as <- <-. apply tracked_simplify. intros i Pi. cbn [v_place v_rows v_dom] in *.
    assert (Pt : v_place t = PKeys i).
    { destruct (in_collection (v_place t)) eqn:Co.
      - inv_ok E1. inv_ok E1. injection E1 as <-. exact Pi.
      - destruct max_rows; [|discriminate]. destruct (sc_group new).
        + destruct (v_place t); try discriminate. injection E1 as <-. discriminate.
        + injection E1 as <-. exact Pi. }
    destruct (T i Pt) as [Sat G]. rewrite Pt in E1. cbn [in_collection] in E1. inv_ok E1. inv_ok E1. destruct augment; [|discriminate].
    injection E1 as <-. cbn [fst snd] in *. unfold propagate_flat_map in E2. cbn [negb andb raise_if bind] in E2. injection E2 as <-.
    assert (KA : keys_agree x t) by (eapply schema_keys_agree; eassumption).
    unfold flat_map_schema in S. inv_ok S. inv_ok S. inv_ok S.
    assert (Gv : forall r o c, In c (dkeys (v_dom t)) -> In o (flat_map_row f new true None r) -> getv c o = getv c r).
    { intros r o c Ic Io. unfold flat_map_row in Io. apply in_map_iff in Io. destruct Io as (o' & <- & _). eapply augmented_getv; eassumption. }
    split.
    + intros c Ic. apply filter_In in Ic. destruct Ic as [Ic Kc]. destruct c as [m|g m|g m]; try discriminate.
      apply (expand_groups i i (v_rows t) (flat_map_row f new true None)) with (g := g) (h := fun v => v); [| |exact (Sat _ Ic)].
      * intros r o _ Io. apply Gv; [|exact Io]. apply (visit_id_present W l2 cat data IN q t cs E0), Pt.
      * intros r o _ Io. apply Gv; [|exact Io]. apply (G _ g Ic eq_refl).
    + intros c g Ic Eg. apply filter_In in Ic. destruct Ic as [Ic Kc]. cbn [mapped_domain].
      apply in_dkeys_merge; [rewrite dkeys_new_core; exact Pn|]. left. apply (G c g Ic Eg).
  - (* flat map by id *)
    inv_ok S. inv_ok H. destruct x0 as [t cs]. unfold visit_flat_map_by_id in H. destruct (v_place t); try discriminate.
    destruct (dget idc (v_dom t)); [|discriminate]. inv_ok H. injection H as <- <-. intros i Pi. split; [intros ? []|intros ? ? []].
  - (* private join *)
    inv_ok S. inv_ok S. inv_ok H. destruct x1 as [tl' cl]. inv_ok H. destruct x1 as [tr' cr]. destruct B as (_ & B1 & B2).
    destruct P as [P1 P2]. destruct F as [F1 F2]. destruct K as (K1 & K2 & K3). destruct (K3 _ _ _ _ E1 E2) as [RBl RBr].
    pose proof (IHq1 B1 P1 F1 K1 x tl' cl E E1) as Tl. pose proof (IHq2 B2 P2 F2 K2 x0 tr' cr E0 E2) as Tr.
    unfold visit_join_private in H. inv_ok H. inv_ok H. destruct x1 as [[p lr] rr]. inv_ok H. injection H as <- <-.
    apply tracked_simplify. intros i Pi. cbn [v_place v_rows v_dom] in *. subst p.
    destruct (v_place tl') as [i1| | |] eqn:Pl; try discriminate; destruct (v_place tr') as [i2| | |] eqn:Pr; try discriminate;
      [|destruct tl; [|discriminate]; destruct tr; discriminate].
    inv_ok E4. inv_ok E4. assert (i1 = i) as -> by congruence. assert (lr = v_rows tl') as -> by congruence.
    assert (rr = v_rows tr') as -> by congruence. clear E4. apply negb_false_iff, String.eqb_eq in E6. subst i2.
    apply negb_false_iff, smem_In in E7.
    destruct (Tl i Pl) as [Sl Gl]. destruct (Tr i Pr) as [Sr Gr].
    set (J := join_columns on (v_dom tl') (v_dom tr')) in *. set (over := overlapping J (v_dom tl') (v_dom tr')).
    pose proof (join_domain_spec _ _ _ _ _ E5) as JD.
    assert (ND : forall a b, NoDup (dkeys (join_row J (dkeys (v_dom tl')) (dkeys (v_dom tr')) a b))).
    { intros a b. rewrite (join_row_keys _ _ _ _ _ a b JD). destruct JD; assumption. }
    assert (Cl : forall g, In g (dkeys (v_dom tl')) -> forall a b,
        getv (if smem g over then String.append g "_left" else g) (join_row J (dkeys (v_dom tl')) (dkeys (v_dom tr')) a b) = getv g a).
    { intros g Ig a b. unfold over. rewrite overlapping_spec by exact Ig. destruct (smem g J) eqn:Sg; cbn [negb andb].
      - apply getv_join_on, smem_In, Sg.
      - apply smem_false in Sg. apply (getv_join_col_left _ _ _ _ _ g (ND a b) Sg Ig). }
    assert (Cr : forall g, In g (dkeys (v_dom tr')) -> forall a b, matches J a b = true ->
        getv (if smem g over then String.append g "_right" else g) (join_row J (dkeys (v_dom tl')) (dkeys (v_dom tr')) a (Some b)) = getv g b).
    { intros g Ig a b M. unfold over. rewrite overlapping_spec_r by exact Ig. destruct (smem g J) eqn:Sg; cbn [negb andb].
      - apply smem_In in Sg. rewrite getv_join_on by exact Sg. apply (proj1 (matches_spec J a b) M g Sg).
      - apply smem_false in Sg. apply (getv_join_col_right _ _ _ _ _ g (ND a (Some b)) Sg Ig). }
    set (Fl := fun a => map (fun b => join_row J (dkeys (v_dom tl')) (dkeys (v_dom tr')) a (Some b)) (filter (matches J a) (v_rows tr'))).
    set (Fr := fun b => flat_map (fun a => if matches J a b then [join_row J (dkeys (v_dom tl')) (dkeys (v_dom tr')) a (Some b)] else []) (v_rows tl')).
    assert (Ol : inner_join J (dkeys (v_dom tl')) (dkeys (v_dom tr')) (v_rows tl') (v_rows tr') = flat_map Fl (v_rows tl')) by reflexivity.
    assert (Or : Permutation (flat_map Fl (v_rows tl')) (flat_map Fr (v_rows tr'))).
    { transitivity (flat_map (fun a => flat_map (fun b => if matches J a b then [join_row J (dkeys (v_dom tl')) (dkeys (v_dom tr')) a (Some b)] else []) (v_rows tr')) (v_rows tl')).
      - apply Permutation_refl'. apply flat_map_ext. intros a. apply map_filter_flat.
      - apply flat_map_swap. }
    assert (Lc : forall c c', In c cl -> In c' (by_stability (max_join_stability J cr) over "_left" c) ->
       satisfies i c' (flat_map Fl (v_rows tl')) /\ grouping c' = option_map (fun g => if smem g over then String.append g "_left" else g) (grouping c)).
    { intros c c' Ic Ic'. eapply by_stability_sound; [| | |exact (Sl c Ic)|exact Ic'].
      - intros a o _ Io. apply in_map_iff in Io. destruct Io as (b & <- & _). apply getv_join_on, E7.
      - intros k Ek a _. unfold Fl. rewrite map_length. eapply private_matches; eassumption.
      - intros g Eg a o _ Io. apply in_map_iff in Io. destruct Io as (b & <- & _). apply Cl. apply (Gl c g Ic Eg). }
    assert (Rc : forall c c', In c cr -> In c' (by_stability (max_join_stability J cl) over "_right" c) ->
       satisfies i c' (flat_map Fr (v_rows tr')) /\ grouping c' = option_map (fun g => if smem g over then String.append g "_right" else g) (grouping c)).
    { intros c c' Ic Ic'. eapply by_stability_sound; [| | |exact (Sr c Ic)|exact Ic'].
      - intros b o _ Io. apply in_flat_map in Io. destruct Io as (a & _ & Io). destruct (matches J a b) eqn:M; [|contradiction].
        destruct Io as [<-|[]]. rewrite getv_join_on by exact E7. apply (proj1 (matches_spec J a b) M i E7).
      - intros k Ek b _. unfold Fr. rewrite flat_if_length. rewrite (filter_ext _ _ (fun a => matches_sym J a b)).
        eapply private_matches; eassumption.
      - intros g Eg b o _ Io. apply in_flat_map in Io. destruct Io as (a & _ & Io). destruct (matches J a b) eqn:M; [|contradiction].
        destruct Io as [<-|[]]. apply Cr; [|exact M]. apply (Gr c g Ic Eg). }
    assert (Kx : forall g, (In g (dkeys (v_dom tl')) -> In (if smem g over then String.append g "_left" else g) (dkeys x1))
                        /\ (In g (dkeys (v_dom tr')) -> In (if smem g over then String.append g "_right" else g) (dkeys x1))).
    { intros g. pose proof (join_domain_keys _ _ _ _ _ E5) as JK. split; intros Ig; apply JK.
      - unfold over. rewrite overlapping_spec by exact Ig. destruct (smem g J) eqn:Sg; cbn [negb andb]; [left; apply smem_In, Sg|].
        right. left. exists g. split; [exact Ig|]. split; [apply smem_false, Sg|]. rewrite suffixed_name_eq. reflexivity.
      - unfold over. rewrite overlapping_spec_r by exact Ig. destruct (smem g J) eqn:Sg; cbn [negb andb]; [left; apply smem_In, Sg|].
        right. right. exists g. split; [exact Ig|]. split; [apply smem_false, Sg|]. rewrite suffixed_name_eq. reflexivity. }
    split.
    + intros c' Ic'. unfold propagate_join_private in Ic'. apply in_app_or in Ic'.
      destruct Ic' as [Ic'|Ic']; apply in_flat_map in Ic'; destruct Ic' as (c & Ic & Ic').
      * rewrite Ol. apply (Lc c c' Ic Ic').
      * rewrite Ol. eapply (satisfies_same i c'); [exact Or|]. apply (Rc c c' Ic Ic').
    + intros c' g' Ic' Eg'. unfold propagate_join_private in Ic'. apply in_app_or in Ic'.
      destruct Ic' as [Ic'|Ic']; apply in_flat_map in Ic'; destruct Ic' as (c & Ic & Ic').
      * destruct (Lc c c' Ic Ic') as [_ Eg]. rewrite Eg' in Eg. destruct (grouping c) as [g|] eqn:Ec; [|discriminate]. cbn in Eg. injection Eg as ->.
        apply (Kx g), (Gl c g Ic Ec).
      * destruct (Rc c c' Ic Ic') as [_ Eg]. rewrite Eg' in Eg. destruct (grouping c) as [g|] eqn:Ec; [|discriminate]. cbn in Eg. injection Eg as ->.
        apply (Kx g), (Gr c g Ic Ec).
  - (* public join *)
    inv_ok S. inv_ok H. destruct x0 as [t cs]. destruct B as (_ & B). destruct P as [P1 P2]. pose proof (IHq B P1 F K x t cs E E0) as T.
    unfold visit_join_public in H. inv_ok H. inv_ok H. inv_ok H. inv_ok H. inv_ok H. injection H as <- <-.
    apply tracked_simplify. intros i Pi. cbn [v_place v_rows v_dom] in *. rewrite Pi in *. cbn [in_collection negb andb] in *.
    destruct (T i Pi) as [Sat G]. set (J := join_columns on (v_dom t) (analytics_to_core x2)) in *.
    set (over := overlapping J (v_dom t) (analytics_to_core x2)) in *.
    pose proof (join_domain_spec _ _ _ _ _ E4) as JD.
    assert (ND : forall a b, NoDup (dkeys (join_row J (dkeys (v_dom t)) (dkeys (analytics_to_core x2)) a b))).
    { intros a b. rewrite (join_row_keys _ _ _ _ _ a b JD). destruct JD; assumption. }
    assert (Cl : forall g, In g (dkeys (v_dom t)) -> forall a b,
        getv (if smem g over then String.append g "_left" else g) (join_row J (dkeys (v_dom t)) (dkeys (analytics_to_core x2)) a b) = getv g a).
    { intros g Ig a b. unfold over. rewrite overlapping_spec by exact Ig. destruct (smem g J) eqn:Sg; cbn [negb andb].
      - apply getv_join_on, smem_In, Sg.
      - apply smem_false in Sg. apply (getv_join_col_left _ _ _ _ _ g (ND a b) Sg Ig). }
    set (Fl := fun a => map (fun b => join_row J (dkeys (v_dom t)) (dkeys (analytics_to_core x2)) a (Some b)) (filter (matches J a) (frame_rows x0))).
    assert (Lc : forall c c', In c cs -> In c' (by_stability (Some (public_stability J (frame_rows x0))) over "_left" c) ->
       satisfies i c' (flat_map Fl (v_rows t)) /\ grouping c' = option_map (fun g => if smem g over then String.append g "_left" else g) (grouping c)).
    { intros c c' Ic Ic'. eapply by_stability_sound; [| | |exact (Sat c Ic)|exact Ic'].
      - intros a o _ Io. apply in_map_iff in Io. destruct Io as (b & <- & _).
        pose proof (Cl i (visit_id_present W l2 cat data IN q t cs E0 i Pi) a (Some b)) as C. cbn in E5. rewrite E5 in C. exact C.
      - intros k Ek a _. unfold Fl. rewrite map_length. injection Ek as <-. apply public_matches.
      - intros g Eg a o _ Io. apply in_map_iff in Io. destruct Io as (b & <- & _). apply Cl. apply (G c g Ic Eg). }
    split.
    + intros c' Ic'. unfold propagate_join_public in Ic'. apply in_flat_map in Ic'. destruct Ic' as (c & Ic & Ic'). apply (Lc c c' Ic Ic').
    + intros c' g' Ic' Eg'. unfold propagate_join_public in Ic'. apply in_flat_map in Ic'. destruct Ic' as (c & Ic & Ic').
      destruct (Lc c c' Ic Ic') as [_ Eg]. rewrite Eg' in Eg. destruct (grouping c) as [g|] eqn:Ec; [|discriminate]. cbn in Eg. injection Eg as ->.
      apply (join_domain_keys _ _ _ _ _ E4). pose proof (G c g Ic Ec) as Ig.
      unfold over. rewrite overlapping_spec by exact Ig. destruct (smem g J) eqn:Sg; cbn [negb andb]; [left; apply smem_In, Sg|].
      right. left. exists g. split; [exact Ig|]. split; [apply smem_false, Sg|]. rewrite suffixed_name_eq. reflexivity.
  - (* replace null *)
    inv_ok S. inv_ok H. destruct x0 as [t cs]. destruct B as (B0 & B). destruct P as (P1 & P2 & P3). destruct K as [K1 K2].
    pose proof (IHq B P1 F K1 x t cs E E0) as T. pose proof (visit_in_domain W l2 cat data IN auto q B P1 t cs E0) as [N D].
    unfold visit_replace_null in H. inv_ok H. inv_ok H. inv_ok H. injection H as <- <-.
    apply tracked_simplify. intros i Pi. cbn [v_place v_rows v_dom] in *. destruct (T i Pi) as [Sat G].
    set (nans := filter _ x1). set (nulls := filter _ x1).
    assert (Nm : ~ In i (dkeys x1)).
    { rewrite Pi in E1, E3. cbn [metric_column] in E1, E3. eapply replaced_not_special; [exact E1|exact E3]. }
    assert (Nn : forall p g, ~ In g (dkeys x1) -> dget g (filter p x1) = None).
    { intros p g Ng. apply dget_None. intros I. apply Ng. eapply dkeys_filter_incl, I. }
    assert (Gc : forall g r, In g (dkeys (v_dom t)) -> In r (v_rows t) ->
       getv g (replace_nans nans (replace_nulls nulls r)) = nan_cell nans g (null_cell nulls g (getv g r))).
    { intros g r Ig Ir. destruct (D r Ir) as (_ & Kr & _). apply Kr in Ig. apply in_dkeys in Ig. destruct Ig as (v & Ev).
      rewrite replace_nans_cells, replace_nulls_cells. unfold getv. rewrite !dget_cells, Ev. reflexivity. }
    assert (Id : forall r, In r (v_rows t) -> getv i (replace_nans nans (replace_nulls nulls r)) = getv i r).
    { intros r Ir. rewrite Gc; [|apply (visit_id_present W l2 cat data IN q t cs E0), Pi|exact Ir].
      unfold nan_cell, null_cell. unfold nulls, nans. rewrite !Nn by exact Nm.
      destruct (getv i r); try reflexivity; match goal with f : fnum |- _ => destruct f; reflexivity end. }
    split.
    + intros c Ic. unfold propagate_replace in Ic. apply filter_In in Ic. destruct Ic as [Ic Kc]. specialize (Sat c Ic).
      destruct c as [m|g m|g m].
      * apply (map_sat i i i i _ _ (MaxRowsPerID m)); [exact Id|exact Id|reflexivity|exact Sat].
      * rewrite map_flat_map. eapply (expand_groups i i) with (h := fun v => nan_cell nans g (null_cell nulls g v)); [| |exact Sat].
        -- intros r o Ir [<-|[]]. apply Id, Ir.
        -- intros r o Ir [<-|[]]. apply (Gc g r); [apply (G _ g Ic eq_refl)|exact Ir].
      * apply (map_sat i i g g _ _ (MaxRowsPerGroupPerID g m)); [exact Id| |auto|exact Sat].
        intros r Ir. rewrite Gc; [|apply (G _ g Ic eq_refl)|exact Ir].
        destruct replace_with as [|p0 rw] eqn:Erw.
        -- destruct (K2 eq_refl t cs g m r E0 Ic Ir) as [Q1 Q2]. unfold nan_cell, null_cell.
           destruct (getv g r); try reflexivity; try discriminate Q1. match goal with f : fnum |- _ => destruct f; try reflexivity; discriminate Q2 end.
        -- assert (Ng : ~ In g (dkeys x1)).
           { rewrite <- Erw in *. intros I. apply negb_true_iff, smem_false in Kc. apply Kc.
             unfold get_replace_with in E3. rewrite Erw in E3. rewrite <- Erw in E3. inv_ok E3. clear -E3 I.
             apply mapM_ok_Forall2 in E3. induction E3 as [|[c v] [c' v'] l l' Hx _ IH]; [exact I|].
             assert (c' = c) as ->.
             { cbn in Hx. destruct (dget c x0) as [d|]; [|discriminate]. destruct (is_decimal d); [|congruence]. inv_ok Hx. congruence. }
             destruct I as [I|I]; [left; exact I|right; apply IH, I]. }
           unfold nan_cell, null_cell. unfold nulls, nans. rewrite !Nn by exact Ng.
           destruct (getv g r); try reflexivity; match goal with f : fnum |- _ => destruct f; reflexivity end.
    + intros c g Ic Eg. unfold propagate_replace in Ic. apply filter_In in Ic. rewrite !at_columns_dkeys. apply (G c g); [apply Ic|exact Eg].
  - (* replace infinity *)
    inv_ok S. inv_ok H. destruct x0 as [t cs]. destruct B as (B0 & B). destruct P as (P1 & P2). destruct F as [F F1]. destruct K as [K1 K2].
    pose proof (IHq B P1 F K1 x t cs E E0) as T. pose proof (visit_in_domain W l2 cat data IN auto q B P1 t cs E0) as [N D].
    unfold visit_replace_inf in H. inv_ok H. inv_ok H. inv_ok H. injection H as <- <-.
    apply tracked_simplify. intros i Pi. cbn [v_place v_rows v_dom] in *. destruct (T i Pi) as [Sat G].
    set (m0 := match replace_with with [] => _ | _ :: _ => _ end) in *.
    assert (Gc : forall g r, In g (dkeys (v_dom t)) -> In r (v_rows t) -> getv g (replace_infs m0 r) = inf_cell m0 g (getv g r)).
    { intros g r Ig Ir. destruct (D r Ir) as (_ & Kr & _). apply Kr in Ig. apply in_dkeys in Ig. destruct Ig as (v & Ev).
      rewrite replace_infs_cells. unfold getv. rewrite !dget_cells, Ev. reflexivity. }
    assert (Id : forall r, In r (v_rows t) -> getv i (replace_infs m0 r) = getv i r).
    { intros r Ir. rewrite Gc; [|apply (visit_id_present W l2 cat data IN q t cs E0), Pi|exact Ir].
      destruct replace_with as [|p0 rw] eqn:Erw.
      - pose proof (F1 eq_refl t cs i r E0 Pi Ir) as Q. unfold inf_cell. destruct (getv i r); try reflexivity.
        match goal with f : fnum |- _ => destruct f; first [reflexivity|discriminate Q] end.
      - unfold inf_cell, m0. rewrite (proj2 (dget_None _ _)); [destruct (getv i r); try reflexivity; match goal with f : fnum |- _ => destruct f; reflexivity end|].
        rewrite <- Erw in *. unfold replace_inf_schema in S. inv_ok S. inv_ok S. inv_ok S.
        assert (KA : keys_agree x t) by (eapply schema_keys_agree; eassumption).
        pose proof (proj1 (ka_id _ _ KA i) Pi) as Ei. rewrite Ei in *. intros I.
        match goal with Q : opt_in (Some i) _ = false |- _ => cbn in Q; apply smem_false in Q; exact (Q I) end. }
    split.
    + intros c Ic. unfold propagate_replace in Ic. apply filter_In in Ic. destruct Ic as [Ic Kc]. specialize (Sat c Ic).
      destruct c as [m|g m|g m].
      * apply (map_sat i i i i _ _ (MaxRowsPerID m)); [exact Id|exact Id|reflexivity|exact Sat].
      * rewrite map_flat_map. eapply (expand_groups i i) with (h := inf_cell m0 g); [| |exact Sat].
        -- intros r o Ir [<-|[]]. apply Id, Ir.
        -- intros r o Ir [<-|[]]. apply (Gc g r); [apply (G _ g Ic eq_refl)|exact Ir].
      * apply (map_sat i i g g _ _ (MaxRowsPerGroupPerID g m)); [exact Id| |auto|exact Sat].
        intros r Ir. rewrite Gc; [|apply (G _ g Ic eq_refl)|exact Ir].
        destruct replace_with as [|p0 rw] eqn:Erw.
        -- pose proof (K2 eq_refl t cs g m r E0 Ic Ir) as Q. unfold inf_cell.
           destruct (getv g r); try reflexivity. match goal with f : fnum |- _ => destruct f; first [reflexivity|discriminate Q] end.
        -- assert (Ng : dget g m0 = None).
           { unfold m0. apply dget_None. apply negb_true_iff, smem_false in Kc. exact Kc. }
           unfold inf_cell. rewrite Ng. destruct (getv g r); try reflexivity; match goal with f : fnum |- _ => destruct f; reflexivity end.
    + intros c g Ic Eg. unfold propagate_replace in Ic. apply filter_In in Ic. rewrite !at_columns_dkeys. apply (G c g); [apply Ic|exact Eg].
  - (* drop null *)
    inv_ok S. inv_ok H. destruct x0 as [t cs]. destruct B as (B0 & B). pose proof (IHq B P F K x t cs E E0) as T.
    unfold visit_drop_null in H. inv_ok H. inv_ok H. inv_ok H. inv_ok H. injection H as <- <-.
    apply tracked_simplify, tracked_sub; [exact T| |rewrite !at_columns_dkeys; reflexivity].
    unfold drop_rows. eapply sub_table_trans; apply sub_table_filter.
  - (* drop infinity *)
    inv_ok S. inv_ok H. destruct x0 as [t cs]. destruct B as (B0 & B). pose proof (IHq B P F K x t cs E E0) as T.
    unfold visit_drop_inf in H. inv_ok H. inv_ok H. inv_ok H. injection H as <- <-.
    apply tracked_simplify, tracked_sub; [exact T| |rewrite !at_columns_dkeys; reflexivity].
    unfold drop_rows. apply sub_table_filter.
  - (* enforce *)
    inv_ok S. inv_ok H. destruct x0 as [t cs]. destruct B as (B0 & B). pose proof (IHq B P F K x t cs E E0) as T.
    unfold visit_enforce in H. inv_ok H. injection H as <- <-.
    assert (exists i, v_place t = PKeys i) as (i & Pi).
    { unfold enforce in E1. cbn [t_place] in E1. destruct c, (v_place t); try discriminate; eauto. }
    assert (x0 = {| t_place := PKeys i; t_rows := enforce_rows (w_row_order W) (w_key_order W) i c (v_rows t) |}) as ->.
    { rewrite Pi in E1. unfold enforce in E1. cbn [t_place t_rows] in E1. destruct c; injection E1 as <-; reflexivity. }
    cbn [t_place t_rows]. apply tracked_simplify. intros j Pj. cbn [v_place v_rows v_dom] in *. injection Pj as <-.
    destruct (T i Pi) as [Sat G]. split.
    + intros c' Ic'. apply in_app_or in Ic'. destruct Ic' as [Ic'|[<-|[]]].
      * eapply satisfies_sub; [apply enforce_rows_sub|apply Sat, Ic'].
      * apply enforce_rows_sat.
    + intros c' g Ic' Eg. apply in_app_or in Ic'. destruct Ic' as [Ic'|[<-|[]]]; [apply (G c' g Ic' Eg)|].
      assert (KA : keys_agree x t) by (eapply schema_keys_agree; eassumption).
      unfold enforce_schema in S. rewrite (proj1 (ka_id _ _ KA i) Pi) in S.
      destruct c as [m|g0 m|g0 m]; cbn in Eg; [discriminate| |]; injection Eg as <-; inv_ok S; apply (ka_cols _ _ KA), dmem_In, negb_false_iff; assumption.
Qed.
End Track.
