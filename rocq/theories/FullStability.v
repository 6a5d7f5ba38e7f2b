(** Queries on tables without IDs keep within the distance that [reach] computes. *)
From Coq Require Import String Bool Arith ZArith QArith Qcanon Lia Lqa Permutation List.
From Verif Require Import Prelude Value Rows Constraints ConstraintsSpec ConstraintsProofs ConstraintsStab Schema SchemaProofs Query Transform TransformSpec TransformConform TransformVisit TransformAgree TransformIds
  OperationsSpec OperationsProofs PropagateProofs QueryLike Blind BlindSpec Distance StabilitySpec RowStability FullPrivacySpec.
From Coq Require Import List.
Import ListNotations.
Local Open Scope string_scope.
Local Open Scope nat_scope.

(** ** Numbers *)
Definition NQ (n : nat) : Q := inject_Z (Z.of_nat n).
Lemma NQ_le a b : a <= b -> (NQ a <= NQ b)%Q.
Proof. intros H. unfold NQ. rewrite <- Zle_Qle. lia. Qed.
Lemma NQ_mul a b : (NQ (a * b) == NQ a * NQ b)%Q.
Proof. unfold NQ. rewrite Nat2Z.inj_mul, inject_Z_mult. reflexivity. Qed.
Lemma NQ_add a b : (NQ (a + b) == NQ a + NQ b)%Q.
Proof. unfold NQ. rewrite Nat2Z.inj_add, inject_Z_plus. reflexivity. Qed.
Lemma NQ_pos a : (0 <= NQ a)%Q. Proof. apply (NQ_le 0). lia. Qed.
Lemma portion_le f n n' N : portion f n N -> n' <= n -> portion f n' N.
Proof. unfold portion. intros H L. eapply Qle_trans; [apply (NQ_le _ _ L)|exact H]. Qed.
Lemma portion_mul f n n' N k : portion f n N -> n' <= k * n -> portion f n' (k * N).
Proof.
  unfold portion. fold (NQ n) (NQ n') (NQ N) (NQ (k * N)). intros H L. apply (Qle_trans _ (NQ (k * n))); [apply NQ_le, L|]. rewrite !NQ_mul.
  setoid_replace (f * (NQ k * NQ N))%Q with (NQ k * (f * NQ N))%Q by ring. rewrite (Qmult_comm (NQ k)), (Qmult_comm (NQ k)). apply Qmult_le_compat_r; [exact H|apply NQ_pos].
Qed.
Lemma portion_zero f N : (0 <= f)%Q -> portion f 0 N.
Proof. intros H. unfold portion. fold (NQ N). change (inject_Z (Z.of_nat 0)) with 0%Q. apply Qmult_le_0_compat; [exact H|apply NQ_pos]. Qed.
Lemma portion_add f a b A B : portion f a A -> portion f b B -> portion f (a + b) (A + B).
Proof. unfold portion. fold (NQ (a + b)) (NQ (A + B)) (NQ a) (NQ b) (NQ A) (NQ B). intros H1 H2. rewrite !NQ_add. rewrite Qmult_plus_distr_r. apply Qplus_le_compat; assumption. Qed.

Lemma list_sum_scale {A} (f : A -> nat) k l : list_sum (map (fun x => k * f x) l) = k * list_sum (map f l).
Proof. induction l as [|x l IH]; cbn [map list_sum fold_right] in *; [lia|]. unfold list_sum in *. lia. Qed.

(** ** Distances after a function of single rows *)
Definition level (p : place) : bool := match p with PGrouped _ true | PGroupedIds _ true _ => false | _ => true end.
Lemma level_distance p a b : level p = true -> distance_squared p a b = row_distance a b * row_distance a b.
Proof. destruct p as [i| |g [|] i|g [|]]; intros H; try discriminate H; reflexivity. Qed.
Lemma grouped_flat_map (h : rec -> table) k g g' a b : (forall r, length (h r) <= k) -> (forall r o, In r (a ++ b)%list -> In o (h r) -> getv g' o = getv g r) ->
  grouped_distance_squared g' (flat_map h a) (flat_map h b) <= k * k * grouped_distance_squared g a b.
Proof.
  intros L G. set (s := nodup value_eq_dec (map (getv g) (a ++ b)%list)).
  assert (N : NoDup s) by apply NoDup_nodup.
  assert (I : forall r, In r (a ++ b)%list -> In (getv g r) s) by (intros r Hr; apply nodup_In, in_map, Hr).
  rewrite (grouped_support g a b s N I), (grouped_support g' _ _ s N).
  - rewrite <- list_sum_scale. apply list_sum_le. intros v _. cbv zeta.
    assert (F : forall l, incl l (a ++ b)%list -> filter (has_value g' v) (flat_map h l) = flat_map h (filter (has_value g v) l)).
    { intros l Il. apply filter_flat_map_comm.
      - intros x Ix Q. split; [reflexivity|]. intros y Iy. apply has_value_true. rewrite (G x y (Il x Ix) Iy). apply has_value_true, Q.
      - intros x Ix Q y Iy. destruct (has_value g' v y) eqn:E; [|reflexivity]. apply has_value_true in E. rewrite (G x y (Il x Ix) Iy) in E. apply has_value_true in E. congruence. }
    rewrite !F by (intros x Ix; apply in_or_app; auto).
    pose proof (distance_flat_map h k (filter (has_value g v) a) (filter (has_value g v) b) L). nia.
  - intros r Hr. rewrite <- flat_map_app in Hr. apply in_flat_map in Hr as (x & Ix & Ir). rewrite (G x r Ix Ir). apply I, Ix.
Qed.
(** One row turns into rows of different groups. *)
Lemma in_one_group g v (h : rec -> table) r : NoDup (map (getv g) (h r)) -> length (filter (has_value g v) (h r)) <= 1.
Proof.
  induction (h r) as [|o l IH]; intros N; cbn [filter length]; [lia|]. cbn [map] in N. inversion N as [|? ? N1 N2]; subst. specialize (IH N2).
  destruct (has_value g v o) eqn:E; [|exact IH]. cbn [length]. rewrite (filter_none (has_value g v) l); [cbn; lia|].
  intros y Iy. destruct (has_value g v y) eqn:F; [|reflexivity]. exfalso. apply N1. apply has_value_true in E, F. rewrite E, <- F. apply in_map, Iy.
Qed.
Lemma group_sizes (g : string) (t : table) s : NoDup s -> list_sum (map (fun v => length (filter (has_value g v) t)) s) <= length t.
Proof.
  intros N. induction t as [|r t IH]; cbn [filter length].
  - rewrite list_sum_zero; [lia|reflexivity].
  - apply (Nat.le_trans _ (list_sum (map (fun v => (if has_value g v r then 1 else 0) + length (filter (has_value g v) t)) s))).
    + apply list_sum_le. intros v _. destruct (has_value g v r); cbn [length]; lia.
    + rewrite list_sum_add. assert (O : list_sum (map (fun v => if has_value g v r then 1 else 0) s) <= 1); [|lia]. clear IH.
      induction s as [|v s IHs]; [cbn; lia|]. inversion N as [|? ? N1 N2]; subst. cbn [map list_sum fold_right]. destruct (has_value g v r) eqn:E; [|apply IHs, N2].
      change (fold_right Nat.add 0 (map (fun v0 => if has_value g v0 r then 1 else 0) s)) with (list_sum (map (fun v0 => if has_value g v0 r then 1 else 0) s)).
      rewrite list_sum_zero; [lia|]. intros w Iw. destruct (has_value g w r) eqn:F; [|reflexivity]. apply has_value_true in E, F. exfalso. apply N1. congruence.
Qed.
Lemma flat_map_length_le (h : rec -> table) k l : (forall r, length (h r) <= k) -> length (flat_map h l) <= k * length l.
Proof. intros L. induction l as [|r l IH]; cbn [flat_map length]; [lia|]. rewrite app_length. pose proof (L r). nia. Qed.
Lemma filter_flat_length (h : rec -> table) (p : rec -> bool) l : (forall r, In r l -> length (filter p (h r)) <= 1) -> length (filter p (flat_map h l)) <= length l.
Proof.
  intros L. induction l as [|r l IH]; cbn [flat_map length]; [cbn; lia|]. rewrite filter_app', app_length. pose proof (L r (or_introl eq_refl)).
  assert (length (filter p (flat_map h l)) <= length l) by (apply IH; intros; apply L; right; assumption). lia.
Qed.
Lemma grouping_flat_map (h : rec -> table) z g a b : (forall r, length (h r) <= z) -> (forall r, In r (a ++ b)%list -> NoDup (map (getv g) (h r))) ->
  grouped_distance_squared g (flat_map h a) (flat_map h b) <= z * (row_distance a b * row_distance a b).
Proof.
  intros L G. destruct (distance_parts a b) as (c & a1 & b1 & PA & PB & E).
  set (A := flat_map h a). set (B := flat_map h b). set (s := nodup value_eq_dec (map (getv g) (A ++ B)%list)).
  assert (N : NoDup s) by apply NoDup_nodup. rewrite (grouped_support g A B s N) by (intros r Hr; apply nodup_In, in_map, Hr).
  set (n := row_distance a b) in *. set (X := flat_map h (a1 ++ b1)%list).
  assert (G1 : forall r, In r (a1 ++ b1)%list -> NoDup (map (getv g) (h r))).
  { intros r Ir. apply G. apply in_app_iff in Ir. apply in_or_app. destruct Ir as [Ir|Ir]; [left; apply (Permutation_in _ (Permutation_sym PA))|right; apply (Permutation_in _ (Permutation_sym PB))]; apply in_or_app; right; exact Ir. }
  assert (D : forall v, row_distance (filter (has_value g v) A) (filter (has_value g v) B) <= length (filter (has_value g v) X)).
  { intros v. unfold A, B, X. rewrite (row_distance_same_l _ (filter (has_value g v) (flat_map h (c ++ a1)%list))) by (apply Permutation_filter, perm_flat_map; [reflexivity|exact PA]).
    rewrite (row_distance_same_r _ _ (filter (has_value g v) (flat_map h (c ++ b1)%list))) by (apply Permutation_filter, perm_flat_map; [reflexivity|exact PB]).
    rewrite !flat_map_app, !filter_app', app_length. apply distance_common. }
  assert (M : forall v, length (filter (has_value g v) X) <= n).
  { intros v. eapply Nat.le_trans; [apply filter_flat_length; intros r Ir; apply in_one_group, G1, Ir|]. rewrite app_length. lia. }
  apply (Nat.le_trans _ (list_sum (map (fun v => n * length (filter (has_value g v) X)) s))).
  - apply list_sum_le. intros v _. cbv zeta. pose proof (D v). pose proof (M v). nia.
  - rewrite list_sum_scale. pose proof (group_sizes g X s N). pose proof (flat_map_length_le h z (a1 ++ b1)%list L) as H1. fold X in H1. rewrite app_length in H1. nia.
Qed.

Lemma filter_flat {A} (p : A -> bool) l : filter p l = flat_map (fun r => if p r then [r] else []) l.
Proof. induction l as [|r l IH]; [reflexivity|]. cbn [filter flat_map]. destruct (p r); cbn [app]; now rewrite IH. Qed.
Lemma map_flat {A B} (f : A -> B) l : map f l = flat_map (fun r => [f r]) l.
Proof. induction l as [|r l IH]; [reflexivity|]. cbn [map flat_map app]. now rewrite IH. Qed.

(** The metric column and what it holds are kept. *)
Definition kept_groups (p p' : place) (a b : table) (h : rec -> table) : Prop :=
  match p with
  | PGrouped g true => exists g', p' = PGrouped g' true /\ forall r o, In r (a ++ b)%list -> In o (h r) -> getv g' o = getv g r
  | PGroupedIds _ true _ => False
  | _ => level p' = true
  end.
Lemma measured_flat rho p p' h k a b : (forall r, length (h r) <= k) -> kept_groups p p' a b h ->
  measured_distance rho p' (flat_map h a) (flat_map h b) <= times rho k * measured_distance rho p a b.
Proof.
  intros L G. unfold measured_distance, times. destruct rho; [|now apply distance_flat_map].
  assert (Q : level p = true -> level p' = true -> distance_squared p' (flat_map h a) (flat_map h b) <= k * k * distance_squared p a b).
  { intros H H'. rewrite !level_distance by assumption. pose proof (distance_flat_map h k a b L). nia. }
  destruct p as [i| |g [|] i|g [|]]; cbn [kept_groups] in G; try (apply Q; [reflexivity|exact G]); [destruct G|].
  destruct G as (g' & -> & G). cbn [distance_squared]. now apply grouped_flat_map.
Qed.
Lemma measured_map rho p p' f a b : kept_groups p p' a b (fun r => [f r]) ->
  measured_distance rho p' (map f a) (map f b) <= measured_distance rho p a b.
Proof.
  intros G. rewrite !map_flat. pose proof (measured_flat rho p p' (fun r => [f r]) 1 a b (fun _ => le_n 1) G) as H. unfold times in H. destruct rho; lia.
Qed.
Lemma measured_filter rho p (c : rec -> bool) a b : match p with PGroupedIds _ _ _ => false | _ => true end = true ->
  measured_distance rho p (filter c a) (filter c b) <= measured_distance rho p a b.
Proof.
  intros NP. rewrite !filter_flat.
  assert (G : kept_groups p p a b (fun r => if c r then [r] else [])).
  { destruct p as [i| |g [|] i|g [|]]; cbn [kept_groups level] in *; try reflexivity; [discriminate NP|]. exists g. split; [reflexivity|]. intros r o _ Io. destruct (c r); [|destruct Io]. destruct Io as [<-|[]]. reflexivity. }
  pose proof (measured_flat rho p p _ 1 a b (fun r => ltac:(destruct (c r); cbn; lia) : length (if c r then [r] else []) <= 1) G) as H. unfold times in H. destruct rho; lia.
Qed.

(** ** Queries *)
Section Groups.
Variables (W : world) (l2 : bool) (cat : catalog) (data : dict vtab).
Hypothesis IN : inputs_ok l2 cat data.
Notation sch := (schema_of (w_cond_ok W) cat).
Definition grouped_by (s : schema) (p : place) : Prop :=
  (forall g b, p = PGrouped g b -> b = l2 /\ (sc_group s = None \/ sc_group s = Some g))
  /\ (forall g b i, p <> PGroupedIds g b i)
  /\ (forall g, sc_group s = Some g -> In g (dkeys (sc_cols s))).
Lemma grouped_rebuild f s s' p : grouped_by s p -> rebuild f s = Ok s' -> grouped_by s' p.
Proof.
  intros (A & B & C) R. apply rebuild_ok in R as (Ec & Eg & _ & _). split; [|split]; [intros g b E; rewrite Eg; apply (A g b E)|exact B|].
  intros g E. rewrite Ec, dkeys_map_key. apply C. congruence.
Qed.
Lemma placed_groups auto q : built auto q -> promises W l2 cat data q ->
  forall s t cs, sch q = Ok s -> visit W l2 cat data q = Ok (t, cs) -> grouped_by s (v_place t).
Proof.
  induction q; intros B P s0 t0 cs0 S H; cbn [visit] in H; try discriminate H; cbn [schema_of] in S.
  - unfold visit_source in H. destruct (dget source_id data) as [t|] eqn:E; [|discriminate].
    destruct (proj1 IN source_id t E) as (s & cs & Es & Ns & Nd & CI & SE & M & _).
    rewrite Es in H. injection H as <- <-. unfold source_schema in S. inv_ok S. rewrite Es in S. injection S as <-.
    unfold metric_for in M. split; [|split].
    + intros g b PL. destruct (sc_group s) as [g0|], (sc_id s); try contradiction; rewrite M in PL; try discriminate PL. injection PL as <- <-. auto.
    + intros g b i PL. destruct (sc_group s) as [g0|], (sc_id s); try contradiction; rewrite M in PL; discriminate PL.
    + intros g G. apply CI. left. exact G.
  - inv_ok S. inv_ok H. destruct x0 as [t cs]. destruct B as [_ B]. destruct P as [P _]. destruct (IHq B P x t cs E E0) as (A & N & I).
    unfold rename_schema in S. inv_ok S. inv_ok S. apply mk_schema_ok in S. destruct S as (_ & SG & _ & ->).
    unfold visit_rename in H. inv_ok H. injection H as <- <-. cbn [v_place]. split; [|split]; cbn [sc_group sc_cols].
    + intros g b PL. destruct (v_place t) as [i| |g0 b0 i|g0 b0] eqn:PT; try discriminate PL. injection PL as <- <-. destruct (A g0 b0 eq_refl) as (-> & [-> | ->]); cbn; auto.
    + intros g b i PL. destruct (v_place t) as [i0| |g0 b0 i0|g0 b0] eqn:PT; try discriminate PL. exact (N _ _ _ eq_refl).
    + exact SG.
  - inv_ok S. inv_ok H. destruct x0 as [t cs]. destruct B as [_ B]. pose proof (IHq B P x t cs E E0) as A.
    unfold filter_schema in S. inv_ok S. injection S as <-. injection H as <- <-. exact A.
  - inv_ok S. inv_ok H. destruct x0 as [t cs]. destruct B as [_ B]. destruct (IHq B P x t cs E E0) as (A & N & I).
    unfold select_schema in S. inv_ok S. inv_ok S. inv_ok S. inv_ok S. apply mk_schema_ok in S. destruct S as (_ & SG & _ & ->).
    unfold visit_select in H. inv_ok H. inv_ok H. injection H as <- <-. split; [exact A|split; [exact N|exact SG]].
  - inv_ok S. inv_ok H. destruct x0 as [t cs]. destruct B as [_ B]. destruct P as (P & Pn & _). destruct (IHq B P x t cs E E0) as (A & N & I).
    unfold visit_map in H. inv_ok H. inv_ok H. injection H as <- <-. unfold map_schema in S. destruct augment.
    + inv_ok S. apply mk_schema_ok in S. destruct S as (_ & SG & _ & ->). split; [exact A|split; [exact N|exact SG]].
    + inv_ok S. inv_ok S. apply mk_schema_ok in S. destruct S as (_ & SG & _ & ->). split; [|split; [exact N|exact SG]]. intros g b PL. cbn [v_place] in PL. destruct (A g b PL) as (-> & _). cbn. auto.
  - inv_ok S. inv_ok H. destruct x0 as [t cs]. destruct B as [_ B]. destruct P as (P & Pn & _). destruct (IHq B P x t cs E E0) as (A & N & I).
    unfold visit_flat_map in H. inv_ok H. inv_ok H. injection H as <- <-. cbn [v_place].
    assert (Pl : fst x0 = v_place t /\ sc_group new = None \/ exists g, fst x0 = PGrouped g l2 /\ sc_group new = Some g).
    { destruct (in_collection (v_place t)) eqn:Co.
      - inv_ok E1. inv_ok E1. injection E1 as <-. left. split; [reflexivity|]. destruct (sc_group new); [discriminate|reflexivity].
      - destruct max_rows; [|discriminate]. destruct (sc_group new) as [g|].
        + destruct (v_place t); try discriminate. injection E1 as <-. right. exists g. auto.
        + injection E1 as <-. auto. }
    unfold flat_map_schema in S. inv_ok S. inv_ok S. destruct augment.
    + inv_ok S. apply mk_schema_ok in S. destruct S as (_ & SG & _ & ->). split; [|split; [|exact SG]].
      * intros g b PL. destruct Pl as [(Pl & GN)|(g0 & Pl & GN)]; rewrite Pl in PL; cbn [sc_group]; rewrite GN; [exact (A g b PL)|]. injection PL as <- <-. auto.
      * intros g b i PL. destruct Pl as [(Pl & GN)|(g0 & Pl & GN)]; rewrite Pl in PL; [exact (N g b i PL)|discriminate PL].
    + inv_ok S. inv_ok S. apply mk_schema_ok in S. destruct S as (_ & SG & _ & ->). split; [|split; [|exact SG]].
      * intros g b PL. destruct Pl as [(Pl & GN)|(g0 & Pl & GN)]; rewrite Pl in PL; cbn [sc_group]; [destruct (A g b PL) as (-> & _); auto|]. injection PL as <- <-. auto.
      * intros g b i PL. destruct Pl as [(Pl & GN)|(g0 & Pl & GN)]; rewrite Pl in PL; [exact (N g b i PL)|discriminate PL].
  - inv_ok S. inv_ok H. destruct x0 as [t cs]. unfold visit_flat_map_by_id in H. destruct (v_place t) as [i| | |]; try discriminate. destruct (dget i (v_dom t)); [|discriminate]. inv_ok H. injection H as <- <-.
    unfold flat_map_by_id_schema in S. destruct (sc_id x) as [i'|] eqn:Ei; [|discriminate]. inv_ok S. inv_ok S. inv_ok S. apply mk_schema_ok in S. destruct S as (_ & SG & _ & ->).
    split; [|split; [|exact SG]]; cbn [v_place]; intros; discriminate.
  - inv_ok S. inv_ok S. inv_ok H. destruct x1 as [tl' cl]. inv_ok H. destruct x1 as [tr' cr].
    unfold join_private_schema in S. inv_ok S. inv_ok S. inv_ok S. unfold schema_for_join in S. inv_ok S. inv_ok S.
    apply mk_schema_ok in S. destruct S as (_ & SG & _ & ->).
    unfold visit_join_private in H. inv_ok H. inv_ok H. destruct x4 as [[p lr] rr]. inv_ok H. injection H as <- <-. cbn [v_place].
    assert (PP : (exists i, p = PKeys i) \/ p = PSym).
    { destruct (v_place tl') as [i1| | |], (v_place tr') as [i2| | |]; try discriminate E9.
      - inv_ok E9. inv_ok E9. left. exists i1. congruence.
      - destruct tl; [|discriminate]. destruct tr; [|discriminate]. right. congruence. }
    split; [|split; [|exact SG]]; destruct PP as [(i & ->)| ->]; intros; discriminate.
  - inv_ok S. inv_ok H. destruct x0 as [t cs]. destruct B as (_ & B). destruct P as [P1 P2]. destruct (IHq B P1 x t cs E E0) as (A & N & I).
    unfold join_public_schema in S. inv_ok S. inv_ok S. unfold schema_for_join in S. inv_ok S. inv_ok S.
    apply mk_schema_ok in S. destruct S as (_ & SG & _ & ->).
    unfold visit_join_public in H. inv_ok H. inv_ok H. inv_ok H. inv_ok H. inv_ok H. injection H as <- <-. cbn [v_place].
    assert (GR : sc_group x0 = None).
    { destruct public as [n|f]; cbn in E1.
      - destruct (dget n (cat_public cat)) as [[s f]|] eqn:En; [|discriminate]. injection E1 as <-. apply (proj2 IN n s f En).
      - inv_ok E1. apply mk_schema_ok in E1. destruct E1 as (_ & _ & _ & ->). reflexivity. }
    split; [|split; [exact N|exact SG]]. intros g b PL. destruct (A g b PL) as (-> & G). split; [reflexivity|]. cbn [sc_group]. rewrite GR. destruct (sc_group x); exact G.
  - inv_ok S. inv_ok H. destruct x0 as [t cs]. destruct B as (_ & B). destruct P as (P1 & _). pose proof (IHq B P1 x t cs E E0) as A.
    unfold replace_null_schema in S. inv_ok S. inv_ok S. inv_ok S.
    unfold visit_replace_null in H. inv_ok H. inv_ok H. inv_ok H. injection H as <- <-. eapply grouped_rebuild; [exact A|exact S].
  - inv_ok S. inv_ok H. destruct x0 as [t cs]. destruct B as (_ & B). destruct P as (P1 & _). pose proof (IHq B P1 x t cs E E0) as A.
    unfold replace_inf_schema in S. inv_ok S. inv_ok S. inv_ok S.
    unfold visit_replace_inf in H. inv_ok H. inv_ok H. inv_ok H. injection H as <- <-. eapply grouped_rebuild; [exact A|exact S].
  - inv_ok S. inv_ok H. destruct x0 as [t cs]. destruct B as (_ & B). pose proof (IHq B P x t cs E E0) as A.
    unfold drop_null_schema in S. inv_ok S. inv_ok S. inv_ok S.
    unfold visit_drop_null in H. inv_ok H. inv_ok H. inv_ok H. inv_ok H. injection H as <- <-. eapply grouped_rebuild; [exact A|exact S].
  - inv_ok S. inv_ok H. destruct x0 as [t cs]. destruct B as (_ & B). pose proof (IHq B P x t cs E E0) as A.
    unfold drop_inf_schema in S. inv_ok S. inv_ok S. inv_ok S.
    unfold visit_drop_inf in H. inv_ok H. inv_ok H. inv_ok H. injection H as <- <-. eapply grouped_rebuild; [exact A|exact S].
  - inv_ok S. inv_ok H. destruct x0 as [t cs]. destruct B as (_ & B). pose proof (IHq B P x t cs E E0) as A.
    assert (s0 = x) as ->.
    { unfold enforce_schema in S. destruct (sc_id x); [|discriminate]. destruct c; [congruence| |]; inv_ok S; inv_ok S; congruence. }
    unfold visit_enforce in H. inv_ok H. injection H as <- <-. cbn [v_place].
    assert (t_place x0 = v_place t) as ->; [|exact A].
    unfold enforce in E1. cbn [t_place] in E1. destruct c, (v_place t); try discriminate; injection E1 as <-; reflexivity.
Qed.
End Groups.

Lemma cross_portion (f x y S T : Q) : (0 <= f -> 0 <= x -> 0 <= y -> 0 <= S -> 0 <= T -> x * x <= f * (S * S) -> y * y <= f * (T * T) -> x * y <= f * (S * T))%Q.
Proof.
  intros F X Y HS HT A B. destruct (Qlt_le_dec (f * (S * T)) (x * y)) as [L|L]; [|exact L]. exfalso.
  assert (P : (0 <= f * (S * T))%Q) by (apply Qmult_le_0_compat; [exact F|apply Qmult_le_0_compat; assumption]).
  assert (U : ((x * x) * (y * y) <= (f * (S * S)) * (f * (T * T)))%Q).
  { apply (Qle_trans _ ((f * (S * S)) * (y * y))); [apply Qmult_le_compat_r; [exact A|apply Qmult_le_0_compat; assumption]|].
    rewrite (Qmult_comm (f * (S * S))), (Qmult_comm (f * (S * S))). apply Qmult_le_compat_r; [exact B|]. eapply Qle_trans; [|exact A]. apply Qmult_le_0_compat; assumption. }
  set (u := (x * y)%Q) in *. set (v := (f * (S * T))%Q) in *.
  setoid_replace ((x * x) * (y * y))%Q with (u * u)%Q in U by (unfold u; ring). setoid_replace ((f * (S * S)) * (f * (T * T)))%Q with (v * v)%Q in U by (unfold v; ring).
  nra.
Qed.
Lemma linear_squared n : n <= Nat.sqrt_up n * Nat.sqrt_up n.
Proof. destruct n as [|n]; [cbn; lia|]. apply (Nat.sqrt_up_spec (S n)). lia. Qed.
Lemma portion_more f n N N' : (0 <= f)%Q -> portion f n N -> N <= N' -> portion f n N'.
Proof.
  unfold portion. fold (NQ n) (NQ N) (NQ N'). intros F H L. eapply Qle_trans; [exact H|]. rewrite !(Qmult_comm f). apply Qmult_le_compat_r; [apply NQ_le, L|exact F].
Qed.
Lemma portion_join rho f a b x y X Y : (0 <= f)%Q -> portion f (times rho x) X -> portion f (times rho y) Y ->
  portion f (times rho (a * x + b * y)) (times rho (a * linear rho X + b * linear rho Y)).
Proof.
  intros F HX HY. destruct rho; cbn [times linear] in *.
  - apply (portion_more _ _ _ (Nat.sqrt_up X * Nat.sqrt_up X) F) in HX; [|apply linear_squared]. apply (portion_more _ _ _ (Nat.sqrt_up Y * Nat.sqrt_up Y) F) in HY; [|apply linear_squared].
    set (S := Nat.sqrt_up X) in *. set (T := Nat.sqrt_up Y) in *.
    assert (C : portion f (x * y) (S * T)).
    { unfold portion in *. fold (NQ (x * y)) (NQ (S * T)) (NQ (x * x)) (NQ (y * y)) (NQ (S * S)) (NQ (T * T)) in *. rewrite !NQ_mul in *. apply cross_portion; try apply NQ_pos; assumption. }
    replace ((a * x + b * y) * (a * x + b * y)) with (a * a * (x * x) + (2 * a * b * (x * y) + b * b * (y * y))) by ring.
    replace ((a * S + b * T) * (a * S + b * T)) with (a * a * (S * S) + (2 * a * b * (S * T) + b * b * (T * T))) by ring.
    apply portion_add; [|apply portion_add]; eapply portion_mul; try eassumption; apply le_n.
  - apply portion_add; eapply portion_mul; try eassumption; apply le_n.
Qed.

Lemma enforce_refused_row rO kO c x y : enforce rO kO c false false x = Ok y -> in_collection (t_place x) = false -> False.
Proof. intros H N. destruct c; cbn [enforce] in H; destruct (t_place x); try discriminate N; discriminate H. Qed.

Ltac same_ok := repeat match goal with A : ?e = Ok ?a, B : ?e = Ok ?b |- _ => let Q := fresh in assert (Q : b = a) by (rewrite A in B; injection B; auto); clear B; try subst b end.

Section Reached.
Variables (rho : bool) (W : world) (l2 : bool) (cat : catalog) (data data' : dict vtab) (nm : string -> nat) (f : Q) (auto : bool).
Hypothesis FPOS : (0 <= f)%Q.
Hypothesis IN : inputs_ok l2 cat data.
Hypothesis IN' : inputs_ok l2 cat data'.
Hypothesis SAME : hide_all data = hide_all data'.
Hypothesis APART : forall n t t', dget n data = Some t -> dget n data' = Some t' -> in_collection (v_place t) = false ->
  within rho f (nm n) (v_place t) (v_rows t) (v_rows t').
Notation sch := (schema_of (w_cond_ok W) cat).
Notation RE := (reach rho W l2 cat (hide_all data) nm).
Definition group_known (s : schema) (p : place) : Prop := match p with PGrouped _ _ => sc_group s <> None | _ => True end.

Lemma within_less N p p' a b a' b' : within rho f N p a b -> measured_distance rho p' a' b' <= measured_distance rho p a b -> within rho f N p' a' b'.
Proof. intros H L. eapply portion_le; eassumption. Qed.

(** One child: the value of the grouping column is kept. *)
Lemma keeps_groups s t t' (h : rec -> table) : grouped_by l2 s (v_place t) -> (forall g, v_place t = PGrouped g true -> sc_group s <> None) ->
  (forall g, l2 = true -> sc_group s = Some g -> v_place t = PGrouped g true -> In g (dkeys (sc_cols s)) -> forall r o, In r (v_rows t ++ v_rows t')%list -> In o (h r) -> getv g o = getv g r) ->
  kept_groups (v_place t) (v_place t) (v_rows t) (v_rows t') h.
Proof.
  intros (A & N & I) GK H. destruct (v_place t) as [i| |g [|] i|g [|]] eqn:PT; cbn [kept_groups level]; try reflexivity; [exact (N _ _ _ eq_refl)|].
  destruct (A g true eq_refl) as (L & [G|G]); [destruct (GK g eq_refl G)|]. exists g. split; [reflexivity|]. exact (H g (eq_sym L) G eq_refl (I g G)).
Qed.

Lemma visit_reach q : built auto q -> promises W l2 cat data q -> promises W l2 cat data' q -> groups_kept W l2 cat data q -> groups_kept W l2 cat data' q ->
  forall s t cs t' cs', sch q = Ok s -> visit W l2 cat data q = Ok (t, cs) -> visit W l2 cat data' q = Ok (t', cs') ->
  in_collection (v_place t) = false -> group_known s (v_place t) ->
  within rho f (RE q) (v_place t) (v_rows t) (v_rows t').
Proof.
  induction q; intros B P P' K K' s0 t0 cs0 t0' cs0' S H H' NC GK; cbn [visit] in H, H'; try discriminate H; cbn [schema_of] in S; cbn [reach].
  - unfold visit_source in H, H'. destruct (dget source_id data) as [t|] eqn:E; [|discriminate]. destruct (dget source_id data') as [t'|] eqn:E'; [|discriminate].
    destruct (dget source_id (cat_private cat)) as [(s, cs)|]; [|discriminate]. injection H as <- <-. injection H' as <- <-. apply APART; assumption.
  - (* rename *)
    inv_ok S. inv_ok H. destruct x0 as [t cs]. inv_ok H'. destruct x0 as [t' cs']. destruct B as [_ B]. destruct P as [P PN]. destruct P' as [P' _].
    pose proof (visit_hidden W l2 cat data data' SAME _ _ _ _ _ E0 E1) as (HU & _). apply hide_eqs in HU as (HD & HC & HP).
    pose proof (placed_groups W l2 cat data IN auto q B P x t cs E E0) as GB. pose proof (schema_keys_agree W l2 cat data IN auto q B P x t cs E E0) as KA.
    pose proof (visit_in_domain W l2 cat data IN auto q B P t cs E0) as [N D]. pose proof (visit_in_domain W l2 cat data' IN' auto q B P' t' cs' E1) as [N' D'].
    unfold rename_schema in S. inv_ok S. inv_ok S. apply mk_schema_ok in S. destruct S as (_ & SG & _ & ->).
    unfold visit_rename in H, H'. inv_ok H. inv_ok H'. injection H as <- <-. injection H' as <- <-. cbn [v_place v_rows] in *.
    assert (GK1 : group_known x (v_place t)) by (destruct (v_place t); try exact I; cbn in GK |- *; intros G; rewrite G in GK; exact (GK eq_refl)).
    assert (NC1 : in_collection (v_place t) = false) by (destruct (v_place t); [discriminate NC|reflexivity..]).
    eapply within_less; [exact (IHq B P P' K K' x t cs t' cs' E E0 E1 NC1 GK1)|].
    apply measured_map. destruct (v_place t) as [i| |g [|] i|g [|]] eqn:PT; cbn [kept_groups level rename_place]; try reflexivity; [exact (proj1 (proj2 GB) _ _ _ eq_refl)|].
    destruct (proj1 GB g true eq_refl) as (_ & [G|G]); [destruct (GK1 G)|]. exists (renamed mapper g). split; [reflexivity|]. intros r o Ir [<-|[]].
    assert (Ig : In g (dkeys (v_dom t))) by (apply (ka_cols _ _ KA), (proj2 (proj2 GB)), G).
    assert (DR : NoDup (dkeys r) /\ (forall c, In c (dkeys r) <-> In c (dkeys (v_dom t)))) by (apply in_app_iff in Ir as [Ir|Ir]; [destruct (D r Ir) as (? & ? & _)|destruct (D' r Ir) as (? & ? & _)]; split; first [assumption|rewrite HD; assumption]).
    destruct DR as (Nr & Kr). unfold getv, rename_row. rewrite dget_rekey; [reflexivity| |apply Kr, Ig].
    eapply Permutation_NoDup; [apply Permutation_map; symmetry; apply (same_keys_perm (dkeys r) (dkeys (v_dom t))); assumption|]. apply (PN t cs E0).
  - (* filter *)
    inv_ok S. inv_ok H. destruct x0 as [t cs]. inv_ok H'. destruct x0 as [t' cs']. destruct B as [_ B].
    pose proof (placed_groups W l2 cat data IN auto q B P x t cs E E0) as GB.
    unfold filter_schema in S. inv_ok S. injection S as <-. injection H as <- <-. injection H' as <- <-. cbn [v_place v_rows] in *.
    eapply within_less; [exact (IHq B P P' K K' x t cs t' cs' E E0 E1 NC GK)|]. apply measured_filter. destruct (v_place t); try reflexivity. destruct (proj1 (proj2 GB) _ _ _ eq_refl).
  - (* select *)
    inv_ok S. inv_ok H. destruct x0 as [t cs]. inv_ok H'. destruct x0 as [t' cs']. destruct B as [_ B].
    pose proof (placed_groups W l2 cat data IN auto q B P x t cs E E0) as GB.
    unfold select_schema in S. inv_ok S. inv_ok S. inv_ok S. inv_ok S. apply mk_schema_ok in S. destruct S as (_ & SG & _ & ->).
    unfold visit_select in H, H'. inv_ok H. inv_ok H. inv_ok H'. inv_ok H'. injection H as <- <-. injection H' as <- <-. cbn [v_place v_rows] in *.
    eapply within_less; [exact (IHq B P P' K K' x t cs t' cs' E E0 E1 NC GK)|]. apply measured_map, (keeps_groups x); [exact GB|intros g PT; rewrite PT in GK; exact GK|].
    intros g _ G PT _ r o _ [<-|[]]. apply getv_select. rewrite G in E2. cbn in E2. apply smem_In, negb_false_iff, E2.
  - (* map *)
    inv_ok S. inv_ok H. destruct x0 as [t cs]. inv_ok H'. destruct x0 as [t' cs']. destruct B as [_ B]. destruct P as (P & Pn & _). destruct P' as (P' & _).
    pose proof (placed_groups W l2 cat data IN auto q B P x t cs E E0) as GB. pose proof (schema_keys_agree W l2 cat data IN auto q B P x t cs E E0) as KA.
    unfold visit_map in H, H'. inv_ok H. inv_ok H. inv_ok H'. inv_ok H'. injection H as <- <-. injection H' as <- <-. cbn [v_place v_rows] in *.
    assert (GK1 : group_known x (v_place t)).
    { destruct (v_place t) as [| | |g b]; try exact I. cbn in GK |- *. unfold map_schema in S. destruct augment; [inv_ok S|inv_ok S; inv_ok S]; apply mk_schema_ok in S as (_ & _ & _ & ->); [exact GK|destruct (GK eq_refl)]. }
    eapply within_less; [exact (IHq B P P' K K' x t cs t' cs' E E0 E1 NC GK1)|]. apply measured_map, (keeps_groups x); [exact GB|intros g PT; rewrite PT in GK1; exact GK1|].
    intros g _ G PT Ig r o _ [<-|[]]. unfold map_schema in S. destruct augment; [|rewrite G in S; discriminate S]. inv_ok S. unfold map_row.
    apply (augmented_getv x t new); [exact KA|exact Pn|assumption|]. apply (ka_cols _ _ KA), Ig.
  - (* flat map *)
    inv_ok S. inv_ok H. destruct x0 as [t cs]. inv_ok H'. destruct x0 as [t' cs']. destruct B as [_ B]. destruct P as (P & Pn & _). destruct P' as (P' & _). destruct K as (K & KG). destruct K' as (K' & KG').
    pose proof (visit_hidden W l2 cat data data' SAME _ _ _ _ _ E0 E1) as (HU & _). apply hide_eqs in HU as (HD & HC & HP).
    pose proof (placed_groups W l2 cat data IN auto q B P x t cs E E0) as GB. pose proof (schema_keys_agree W l2 cat data IN auto q B P x t cs E E0) as KA.
    unfold visit_flat_map in H, H'. rewrite <- HP in H'. inv_ok H. inv_ok H. inv_ok H'. inv_ok H'. same_ok. injection H as <- <-. injection H' as <- <-. cbn [v_place v_rows] in *.
    assert (NC1 : in_collection (v_place t) = false).
    { destruct (in_collection (v_place t)) eqn:Co; [|reflexivity]. inv_ok E2. inv_ok E2. injection E2 as <-. cbn [fst] in NC. congruence. }
    rewrite NC1 in E2. destruct max_rows as [z|]; [|discriminate E2].
    assert (LEN : forall r, length (flat_map_row f0 new augment (Some (Z.to_nat z)) r) <= Z.to_nat z) by (intros r; unfold flat_map_row; rewrite map_length; apply firstn_le_length).
    destruct (sc_group new) as [g|] eqn:GN.
    + destruct (v_place t) eqn:PT; try discriminate E2. injection E2 as <-. cbn [fst snd is_some] in *.
      pose proof (IHq B P P' K K' x t cs t' cs' E E0 E1) as W0. rewrite PT in W0. specialize (W0 eq_refl I).
      rewrite andb_true_r. destruct (rho && l2) eqn:RL.
      * apply andb_true_iff in RL as (-> & ->). eapply portion_mul; [exact W0|]. cbn [measured_distance distance_squared]. apply grouping_flat_map; [exact LEN|].
        intros r Ir. apply in_app_iff in Ir as [Ir|Ir]; [exact (KG t cs g z r eq_refl E0 eq_refl eq_refl Ir)|exact (KG' t' cs' g z r eq_refl E1 eq_refl eq_refl Ir)].
      * eapply portion_mul; [exact W0|]. unfold measured_distance, times. destruct rho; [|apply distance_flat_map, LEN]. cbn [andb] in RL. subst l2. cbn [distance_squared].
        pose proof (distance_flat_map (flat_map_row f0 new augment (Some (Z.to_nat z))) (Z.to_nat z) (v_rows t) (v_rows t') LEN). nia.
    + injection E2 as <-. cbn [fst snd is_some] in *. rewrite andb_false_r.
      assert (GK1 : group_known x (v_place t)).
      { destruct (v_place t) as [| | |g b]; try exact I. cbn in GK |- *. unfold flat_map_schema in S. inv_ok S. inv_ok S. destruct augment; [inv_ok S|inv_ok S; inv_ok S]; apply mk_schema_ok in S as (_ & _ & _ & ->); cbn [sc_group] in GK; [rewrite GN in GK; exact GK|destruct (GK eq_refl)]. }
      eapply portion_mul; [exact (IHq B P P' K K' x t cs t' cs' E E0 E1 NC1 GK1)|]. apply measured_flat; [exact LEN|]. apply (keeps_groups x); [exact GB|intros g PT; rewrite PT in GK1; exact GK1|].
      intros g _ G PT Ig r o _ Io. unfold flat_map_row in Io. apply in_map_iff in Io as (u & <- & _). unfold flat_map_schema in S. inv_ok S. inv_ok S. destruct augment; [|rewrite G in S; discriminate S]. inv_ok S.
      apply (augmented_getv x t new); [exact KA|exact Pn|assumption|]. apply (ka_cols _ _ KA), Ig.
  - (* flat map by id *)
    inv_ok S. inv_ok H. destruct x0 as [t cs]. unfold visit_flat_map_by_id in H. destruct (v_place t) as [i| | |]; try discriminate. destruct (dget i (v_dom t)); [|discriminate]. inv_ok H. injection H as <- <-. discriminate NC.
  - (* private join *)
    inv_ok S. inv_ok S. inv_ok H. destruct x1 as [tl' cl]. inv_ok H. destruct x1 as [tr' cr]. inv_ok H'. destruct x1 as [ul ul']. inv_ok H'. destruct x1 as [ur ur']. destruct B as (_ & B1 & B2).
    destruct P as [P1 P2]. destruct P' as [P1' P2']. destruct K as [K1 K2]. destruct K' as [K1' K2'].
    pose proof (visit_hidden W l2 cat data data' SAME _ _ _ _ _ E1 E3) as (HU & _). apply hide_eqs in HU as (HD & HC & HP). pose proof (visit_hidden W l2 cat data data' SAME _ _ _ _ _ E2 E4) as (HU & _). apply hide_eqs in HU as (HD2 & HC2 & HP2).
    unfold visit_join_private in H, H'. rewrite <- HP, <- HP2, <- HD, <- HD2, <- HC, <- HC2 in H'. inv_ok H. inv_ok H. destruct x1 as [[p lr] rr]. inv_ok H. inv_ok H'. inv_ok H'. destruct x2 as [[p' lr'] rr']. inv_ok H'. injection H as <- <-. injection H' as <- <-. cbn [v_place v_rows] in *.
    pose proof (IHq1 B1 P1 P1' K1 K1' x tl' cl ul ul' E E1 E3) as W1. pose proof (IHq2 B2 P2 P2' K2 K2' x0 tr' cr ur ur' E0 E2 E4) as W2.
    destruct (v_place tl') as [i1| | |], (v_place tr') as [i2| | |]; try discriminate E6.
    + inv_ok E6. inv_ok E6. assert (p = PKeys i1) as -> by congruence. discriminate NC.
    + destruct tl as [sl|]; [|discriminate]. destruct tr as [sr|]; [|discriminate]. injection E6 as <- <- <-. injection E9 as <- <- <-.
      specialize (W1 eq_refl I). specialize (W2 eq_refl I).
      assert (MT : forall a b, measured_distance rho PSym a b = times rho (row_distance a b)) by (intros; unfold measured_distance, times; destruct rho; reflexivity).
      unfold within in *. rewrite MT in *. eapply portion_le; [apply (portion_join rho f _ _ _ _ _ _ FPOS W1 W2)|].
      pose proof (private_join_stable (w_row_order W) sl sr (join_columns on (v_dom tl') (v_dom tr')) (dkeys (v_dom tl')) (dkeys (v_dom tr')) (v_rows tl') (v_rows ul) (v_rows tr') (v_rows ur)).
      unfold times. destruct rho; [apply Nat.mul_le_mono; assumption|assumption].
  - (* public join *)
    inv_ok S. inv_ok H. destruct x0 as [t cs]. inv_ok H'. destruct x0 as [t' cs']. destruct B as (_ & B). destruct P as [P P2]. destruct P' as [P' _].
    pose proof (visit_hidden W l2 cat data data' SAME _ _ _ _ _ E0 E1) as (HU & _). apply hide_eqs in HU as (HD & HC & HP).
    pose proof (placed_groups W l2 cat data IN auto q B P x t cs E E0) as GB. pose proof (schema_keys_agree W l2 cat data IN auto q B P x t cs E E0) as KA.
    unfold visit_join_public in H, H'. rewrite <- HP, <- HD, <- HC in H'. inv_ok H. inv_ok H. inv_ok H. inv_ok H. inv_ok H.
    rewrite E2 in H'. cbn [bind] in H'. rewrite E3 in H'. cbn [bind] in H'. rewrite E4 in H'. cbn [bind] in H'. rewrite E5 in H'. cbn [bind] in H'. rewrite E6 in H'. cbn [raise_if bind] in H'.
    injection H as <- <-. injection H' as <- <-. cbn [v_place v_rows] in *. rewrite NC in *. cbn [negb andb] in *.
    assert (GK1 : group_known x (v_place t)).
    { destruct (v_place t) as [| | |g b]; try exact I. cbn in GK |- *. unfold join_public_schema in S. inv_ok S. inv_ok S. unfold schema_for_join in S. inv_ok S. inv_ok S. apply mk_schema_ok in S as (_ & _ & _ & ->). cbn [sc_group] in GK.
      assert (GR : sc_group x4 = None).
      { destruct public as [n|fr]; cbn in E7.
        - destruct (dget n (cat_public cat)) as [[s fr]|] eqn:En; [|discriminate]. injection E7 as <-. apply (proj2 IN n s fr En).
        - inv_ok E7. apply mk_schema_ok in E7. destruct E7 as (_ & _ & _ & ->). reflexivity. }
      rewrite GR in GK. destruct (sc_group x); [discriminate|exact GK]. }
    apply mk_schema_ok in E4 as (_ & _ & _ & ->).
    assert (JF : join_factor W l2 cat (hide_all data) q public on how = (if String.eqb how "left" then Nat.max 1 else fun k => k) (public_stability (join_columns on (v_dom t) (map (fun e => (fst e, to_core (snd e))) x1)) (frame_rows x0))).
    { unfold join_factor. rewrite visit_hide, E0. cbn [rmap bind]. rewrite E2. cbn [bind]. rewrite E3. cbn [bind hide2 fst]. change (v_dom (hide t)) with (v_dom t). destruct (String.eqb how "left"); reflexivity. }
    rewrite analytics_to_core_cols in *. cbn [sc_cols] in *. change (core_cols x1) with (map (fun e => (fst e, to_core (snd e))) x1) in *.
    set (dom := map (fun e => (fst e, to_core (snd e))) x1) in *. set (cols := join_columns on (v_dom t) dom) in *.
    eapply portion_mul; [exact (IHq B P P' K K' x t cs t' cs' E E0 E1 NC GK1)|]. rewrite JF.
    assert (GV : forall g, v_place t = PGrouped g true -> In g (dkeys (v_dom t)) -> forall r o, getv g (join_row cols (dkeys (v_dom t)) (dkeys dom) r o) = getv g r).
    { intros g PT Ig r o. destruct (in_dec string_dec g cols) as [Io|Io]; [apply getv_join_on, Io|]. apply getv_join_left; [|exact Io|exact Ig|].
      - apply join_domain_spec in E5. rewrite (join_row_keys _ _ _ _ _ r o E5). destruct E5; assumption.
      - intros Ir'. rewrite PT in E6. cbn in E6. apply smem_false in E6. apply E6. unfold overlapping. apply filter_In. split.
        + unfold common_columns. apply filter_In. split; [exact Ig|apply dmem_In, Ir'].
        + apply negb_true_iff, smem_false, Io. }
    destruct (String.eqb how "left"); unfold left_join, inner_join.
    + apply measured_flat.
      * intros r. pose proof (public_matches cols r (frame_rows x0)) as PM. destruct (filter (matches cols r) (frame_rows x0)); [cbn [length]; lia|]. rewrite map_length. lia.
      * apply (keeps_groups x); [exact GB|intros g PT; rewrite PT in GK1; exact GK1|]. intros g _ G PT Ig r o _ Io. apply (ka_cols _ _ KA) in Ig.
        destruct (filter (matches cols r) (frame_rows x0)); [destruct Io as [<-|[]]; apply GV; assumption|]. apply in_map_iff in Io as (y & <- & _). apply GV; assumption.
    + apply measured_flat.
      * intros r. rewrite map_length. apply public_matches.
      * apply (keeps_groups x); [exact GB|intros g PT; rewrite PT in GK1; exact GK1|]. intros g _ G PT Ig r o _ Io. apply (ka_cols _ _ KA) in Ig.
        apply in_map_iff in Io as (y & <- & _). apply GV; assumption.
  - (* replace null *)
    inv_ok S. inv_ok H. destruct x0 as [t cs]. inv_ok H'. destruct x0 as [t' cs']. destruct B as (_ & B). destruct P as (P & _). destruct P' as (P' & _).
    pose proof (visit_hidden W l2 cat data data' SAME _ _ _ _ _ E0 E1) as (HU & _). apply hide_eqs in HU as (HD & HC & HP).
    pose proof (placed_groups W l2 cat data IN auto q B P x t cs E E0) as GB.
    unfold replace_null_schema in S. inv_ok S. inv_ok S. inv_ok S. apply rebuild_ok in S as (_ & Sg & _).
    unfold visit_replace_null in H, H'. rewrite <- HP, <- HD, <- HC in H'. inv_ok H. inv_ok H. inv_ok H. inv_ok H'. inv_ok H'. inv_ok H'. same_ok. injection H as <- <-. injection H' as <- <-. cbn [v_place v_rows] in *.
    assert (GK1 : group_known x (v_place t)) by (destruct (v_place t); try exact I; cbn in *; congruence).
    eapply within_less; [exact (IHq B P P' K K' x t cs t' cs' E E0 E1 NC GK1)|]. apply measured_map, (keeps_groups x); [exact GB|intros g PT; rewrite PT in GK1; exact GK1|].
    intros g _ G PT Ig r o _ [<-|[]].
    match goal with Q : opt_in (metric_column _) _ = false, Q2 : get_replace_with _ _ (metric_column _) = Ok _ |- _ => rewrite PT in Q, Q2; cbn [metric_column] in Q, Q2; pose proof (replaced_not_special _ _ _ _ Q Q2) as Nm end.
    rewrite replace_nans_cells, replace_nulls_cells. rewrite !TransformIds.getv_cellwise; [reflexivity| |].
    + intros v. unfold null_cell. rewrite (proj2 (dget_None _ _)); [destruct v; reflexivity|]. intros J. apply Nm. eapply dkeys_filter_incl, J.
    + intros v. unfold nan_cell. rewrite (proj2 (dget_None _ _)); [destruct v as [| |fv| | |]; try reflexivity; destruct fv; reflexivity|]. intros J. apply Nm. eapply dkeys_filter_incl, J.
  - (* replace infinity *)
    inv_ok S. inv_ok H. destruct x0 as [t cs]. inv_ok H'. destruct x0 as [t' cs']. destruct B as (_ & B). destruct P as (P & _). destruct P' as (P' & _). destruct K as (K & KI). destruct K' as (K' & KI').
    pose proof (visit_hidden W l2 cat data data' SAME _ _ _ _ _ E0 E1) as (HU & _). apply hide_eqs in HU as (HD & HC & HP).
    pose proof (placed_groups W l2 cat data IN auto q B P x t cs E E0) as GB.
    unfold replace_inf_schema in S. inv_ok S. inv_ok S. inv_ok S. apply rebuild_ok in S as (_ & Sg & _).
    unfold visit_replace_inf in H, H'. rewrite <- HD, <- HC in H'. inv_ok H. inv_ok H. inv_ok H. inv_ok H'. inv_ok H'. inv_ok H'. same_ok. injection H as <- <-. injection H' as <- <-. cbn [v_place v_rows] in *.
    assert (GK1 : group_known x (v_place t)) by (destruct (v_place t); try exact I; cbn in *; congruence).
    eapply within_less; [exact (IHq B P P' K K' x t cs t' cs' E E0 E1 NC GK1)|]. apply measured_map, (keeps_groups x); [exact GB|intros g PT; rewrite PT in GK1; exact GK1|].
    intros g _ G PT Ig r o Ir [<-|[]]. rewrite replace_infs_cells. destruct replace_with as [|p0 rw] eqn:Erw.
    + assert (Q : is_inf (getv g r) = false) by (apply in_app_iff in Ir as [Ir|Ir]; [exact (KI eq_refl t cs g r E0 PT Ir)|rewrite HP in PT; exact (KI' eq_refl t' cs' g r E1 PT Ir)]).
      unfold getv in *. rewrite dget_cells. destruct (dget g r) as [v|] eqn:Ev; [|reflexivity]. cbn [option_map]. unfold inf_cell. destruct v as [| |fv| | |]; try reflexivity. destruct fv; first [reflexivity|discriminate Q].
    + apply TransformIds.getv_cellwise. intros v. unfold inf_cell. rewrite (proj2 (dget_None _ _)); [destruct v as [| |fv| | |]; try reflexivity; destruct fv; reflexivity|].
      rewrite <- Erw in *. rewrite G in *. intros J. match goal with Q : opt_in (Some g) _ = false |- _ => cbn in Q; apply smem_false in Q; exact (Q J) end.
  - (* drop null *)
    inv_ok S. inv_ok H. destruct x0 as [t cs]. inv_ok H'. destruct x0 as [t' cs']. destruct B as (_ & B).
    pose proof (visit_hidden W l2 cat data data' SAME _ _ _ _ _ E0 E1) as (HU & _). apply hide_eqs in HU as (HD & HC & HP).
    pose proof (placed_groups W l2 cat data IN auto q B P x t cs E E0) as GB.
    unfold drop_null_schema in S. inv_ok S. inv_ok S. inv_ok S. apply rebuild_ok in S as (_ & Sg & _).
    unfold visit_drop_null in H, H'. rewrite <- HP, <- HD, <- HC in H'. inv_ok H. inv_ok H. inv_ok H. inv_ok H. inv_ok H'. inv_ok H'. inv_ok H'. inv_ok H'. same_ok. injection H as <- <-. injection H' as <- <-. cbn [v_place v_rows] in *.
    assert (GK1 : group_known x (v_place t)) by (destruct (v_place t); try exact I; cbn in *; congruence).
    assert (NI : match v_place t with PGroupedIds _ _ _ => false | _ => true end = true) by (destruct (v_place t); try reflexivity; destruct (proj1 (proj2 GB) _ _ _ eq_refl)).
    eapply within_less; [exact (IHq B P P' K K' x t cs t' cs' E E0 E1 NC GK1)|]. unfold drop_rows. eapply Nat.le_trans; apply measured_filter, NI.
  - (* drop infinity *)
    inv_ok S. inv_ok H. destruct x0 as [t cs]. inv_ok H'. destruct x0 as [t' cs']. destruct B as (_ & B).
    pose proof (visit_hidden W l2 cat data data' SAME _ _ _ _ _ E0 E1) as (HU & _). apply hide_eqs in HU as (HD & HC & HP).
    pose proof (placed_groups W l2 cat data IN auto q B P x t cs E E0) as GB.
    unfold drop_inf_schema in S. inv_ok S. inv_ok S. inv_ok S. apply rebuild_ok in S as (_ & Sg & _).
    unfold visit_drop_inf in H, H'. rewrite <- HD, <- HC in H'. inv_ok H. inv_ok H. inv_ok H. inv_ok H'. inv_ok H'. inv_ok H'. same_ok. injection H as <- <-. injection H' as <- <-. cbn [v_place v_rows] in *.
    assert (GK1 : group_known x (v_place t)) by (destruct (v_place t); try exact I; cbn in *; congruence).
    assert (NI : match v_place t with PGroupedIds _ _ _ => false | _ => true end = true) by (destruct (v_place t); try reflexivity; destruct (proj1 (proj2 GB) _ _ _ eq_refl)).
    eapply within_less; [exact (IHq B P P' K K' x t cs t' cs' E E0 E1 NC GK1)|]. unfold drop_rows. apply measured_filter, NI.
  - (* enforce *)
    inv_ok S. inv_ok H. destruct x0 as [t cs]. unfold visit_enforce in H. inv_ok H. injection H as <- <-. cbn [v_place] in NC. exfalso.
    eapply (enforce_refused_row (w_row_order W) (w_key_order W) c _ _ E1). cbn [t_place].
    destruct c, (v_place t) eqn:PT; cbn [enforce t_place] in E1; try discriminate E1; injection E1 as <-; try discriminate NC; reflexivity.
Qed.
End Reached.
