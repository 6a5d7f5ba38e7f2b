(** Property C85: exact answers follow what is done to the table.  Each step of a query keeps, drops
    or multiplies rows as it announces, and the answers show it. *)
From Coq Require Import String Bool Arith ZArith QArith Qcanon Lia Permutation List.
From Verif Require Import Prelude Budget BudgetScale Value Rows Constraints ConstraintsSpec ConstraintsProofs ConstraintsStab Schema SchemaProofs Query RewriteSpec Transform TransformSpec Tables TablesProofs
  TransformConform QueryProofs Accountant AccountantProofs Session SessionSpec SessionMoney SessionSteps SessionTables SessionInv SessionViews SessionWell SessionSound
  Builder BuilderCalls Measure MeasureProofs MeasureCount MeasureRows
  Props_Constraints Props_Query Props_Session Props_Measure Props_Sound Props_Sensitivity AnswerSchema AnswerKeys Props_AnswerKeys Props_Rewrite Exact Props_Exact Props_ExactSession Props_RollUp.
From Verif Require QueryLaws OperationsProofs RowStability.
Import ListNotations.
Local Open Scope string_scope.
Local Open Scope nat_scope.

(** ** Specification *)
(** The rows a truncation strategy keeps for each join key. *)
Definition kept_per_key (st : strategy) : nat := match st with DropExcess n => n | DropNonUnique => 1 end.
(** [derived keys s c q lo hi]: the table [q], whose schema is [s], is made from the table [c] by steps
    that leave the columns [keys] alone and turn each row into at least [lo] and at most [hi] rows. *)
Inductive derived (cat : catalog) (keys : list string) (s : schema) (c : query) : query -> nat -> nat -> Prop :=
| d_same : derived cat keys s c c 1 1
(** row by row, without dropping any *)
| d_select q cols lo hi : derived cat keys s c q lo hi -> incl keys cols -> derived cat keys s c (Select q cols) lo hi
| d_rename q m lo hi : derived cat keys s c q lo hi -> (forall k, In k keys -> ~ In k (dkeys m) /\ ~ In k (map snd m)) ->
    derived cat keys s c (Rename q m) lo hi
| d_map q f new lo hi : derived cat keys s c q lo hi -> NoDup (dkeys (sc_cols new)) -> (forall k, In k keys -> ~ In k (dkeys (sc_cols new))) ->
    derived cat keys s c (MapQ q f new true) lo hi
| d_replace_null q rw lo hi : derived cat keys s c q lo hi -> rw <> [] -> (forall k, In k keys -> ~ In k (dkeys rw)) ->
    derived cat keys s c (ReplaceNullAndNan q rw) lo hi
| d_replace_inf q rw lo hi : derived cat keys s c q lo hi -> rw <> [] -> (forall k, In k keys -> ~ In k (dkeys rw)) ->
    derived cat keys s c (ReplaceInfinity q rw) lo hi
(** dropping rows *)
| d_filter q cond lo hi : derived cat keys s c q lo hi -> derived cat keys s c (Filter q cond) 0 hi
| d_drop_null q cols lo hi : derived cat keys s c q lo hi -> derived cat keys s c (DropNullAndNan q cols) 0 hi
| d_drop_inf q cols lo hi : derived cat keys s c q lo hi -> derived cat keys s c (DropInfinity q cols) 0 hi
| d_enforce q k lo hi : derived cat keys s c q lo hi -> derived cat keys s c (EnforceConstraint q k) 0 hi
(** a flat map: max_rows limits tables without IDs only, what the function returns limits all *)
| d_flat_map q f new n lo hi : derived cat keys s c q lo hi -> NoDup (dkeys (sc_cols new)) -> (forall k, In k keys -> ~ In k (dkeys (sc_cols new))) ->
    sc_id s = None -> derived cat keys s c (FlatMap q f new true (Some n)) 0 (hi * Z.to_nat n)
| d_flat_map_short q f new max_rows n lo hi : derived cat keys s c q lo hi -> NoDup (dkeys (sc_cols new)) -> (forall k, In k keys -> ~ In k (dkeys (sc_cols new))) ->
    (forall r, length (f r) <= n) -> derived cat keys s c (FlatMap q f new true max_rows) 0 (hi * n)
(** a join with a public table that has each combination of the join columns at most [n] times *)
| d_inner_join q p on n lo hi : derived cat keys s c q lo hi -> incl keys on ->
    (forall f x, public_frame cat p = Ok f -> length (rows_with_key on x (frame_rows f)) <= n) ->
    derived cat keys s c (JoinPublic q p (Some on) "inner") 0 (hi * n)
| d_left_join q p on n lo hi : derived cat keys s c q lo hi -> incl keys on -> sc_id s = None ->
    (forall f x, public_frame cat p = Ok f -> length (rows_with_key on x (frame_rows f)) <= n) ->
    derived cat keys s c (JoinPublic q p (Some on) "left") lo (hi * Nat.max 1 n)
(** a join of tables without IDs: the truncation of the other table limits the rows per join key *)
| d_join_private q other sl sr on lo hi : derived cat keys s c q lo hi -> incl keys on -> sc_id s = None ->
    derived cat keys s c (JoinPrivate q other (Some sl) (Some sr) (Some on)) 0 (hi * kept_per_key sr)
| d_join_private_right q other sl sr on lo hi : derived cat keys s c q lo hi -> incl keys on -> sc_id s = None ->
    derived cat keys s c (JoinPrivate other q (Some sl) (Some sr) (Some on)) 0 (hi * kept_per_key sl).

(** ** Rows by key *)
(** For each key, [b] has between [lo] and [hi] times as many rows as [a]. *)
Definition spread (keys : list string) (lo hi : nat) (a b : table) : Prop :=
  forall r, lo * length (rows_with_key keys r a) <= length (rows_with_key keys r b) <= hi * length (rows_with_key keys r a).
Lemma spread_flat keys lo hi (f : rec -> table) : forall T, (forall x y, In y (f x) -> forall k, In k keys -> getv k y = getv k x) ->
  (forall x, lo <= length (f x) <= hi) -> spread keys lo hi T (flat_map f T).
Proof.
  intros T K L r. unfold rows_with_key. induction T as [|x T IH]; [cbn; lia|]. cbn [flat_map]. rewrite filter_app, app_length. cbn [filter].
  set (P := fun r0 => forallb (fun c => value_eqb (getv c r) (getv c r0)) keys) in *.
  assert (E : forall y, In y (f x) -> P y = P x).
  { intros y Y. unfold P. specialize (K x y Y). clear -K. induction keys as [|k ks IH]; [reflexivity|]. cbn [forallb]. rewrite (K k (or_introl eq_refl)). f_equal. apply IH. intros k' I. apply K. right. exact I. }
  specialize (L x). assert (F : filter P (f x) = if P x then f x else []).
  { clear -E. induction (f x) as [|y l IH]; [now destruct (P x)|]. cbn [filter]. rewrite (E y (or_introl eq_refl)), IH by (intros z Z; apply E; right; exact Z). now destruct (P x). }
  rewrite F. change (forallb (fun c => value_eqb (getv c r) (getv c x)) keys) with (P x). destruct (P x); cbn [length]; nia.
Qed.
Lemma spread_map keys (f : rec -> rec) T : (forall x k, In k keys -> getv k (f x) = getv k x) -> spread keys 1 1 T (map f T).
Proof.
  intros K. assert (E : map f T = flat_map (fun x => [f x]) T) by (induction T as [|x T IH]; [reflexivity|]; cbn; now rewrite IH).
  rewrite E. apply spread_flat; [|cbn; lia]. intros x y [<-|[]] k I. now apply K.
Qed.
Lemma spread_sub keys T T' : sub_table T' T -> spread keys 0 1 T T'.
Proof. intros S r. cbn [Nat.mul]. rewrite Nat.add_0_r. split; [lia|]. apply sub_table_length. apply sub_table_filter_mono. exact S. Qed.
Lemma spread_filter keys p T : spread keys 0 1 T (filter p T).
Proof. apply spread_sub, sub_table_filter. Qed.
Lemma spread_trans keys lo hi lo' hi' a b c : spread keys lo hi a b -> spread keys lo' hi' b c -> spread keys (lo * lo') (hi * hi') a c.
Proof. intros H1 H2 r. specialize (H1 r). specialize (H2 r). nia. Qed.
Lemma spread_le keys lo hi lo' hi' a b : spread keys lo hi a b -> lo' <= lo -> hi <= hi' -> spread keys lo' hi' a b.
Proof. intros H1 L H r. specialize (H1 r). nia. Qed.

Lemma matches_keys on keys x y : incl keys on -> matches on x y = true -> forall k, In k keys -> getv k y = getv k x.
Proof. intros I M k K. unfold matches in M. rewrite forallb_forall in M. specialize (M k (I k K)). apply value_eqb_eq in M. now symmetry. Qed.
Lemma matches_swap on x y : matches on x y = matches on y x.
Proof. unfold matches. induction on as [|k on IH]; [reflexivity|]. cbn [forallb]. rewrite IH. f_equal. apply eq_true_iff_eq. rewrite !value_eqb_eq. split; congruence. Qed.
Lemma key_same keys r x y : (forall k, In k keys -> getv k y = getv k x) ->
  forallb (fun c => value_eqb (getv c r) (getv c y)) keys = forallb (fun c => value_eqb (getv c r) (getv c x)) keys.
Proof. intros K. induction keys as [|k ks IH]; [reflexivity|]. cbn [forallb]. rewrite (K k (or_introl eq_refl)). f_equal. apply IH. intros k' I. apply K. right. exact I. Qed.
(** Counting the pairs of a join from the right. *)
Lemma join_pairs keys on lc rc r (L R : table) : incl keys on -> let P := fun r0 => forallb (fun c => value_eqb (getv c r) (getv c r0)) keys in
  length (rows_with_key keys r (inner_join on lc rc L R)) = list_sum (map (fun y => if P y then length (filter (matches on y) L) else 0) R).
Proof.
  intros I P. unfold rows_with_key, inner_join. fold P.
  induction L as [|x L IH].
    - cbn [flat_map filter length]. induction R as [|y R IH]; [reflexivity|]. cbn [map filter length list_sum fold_right] in *. destruct (P y); exact IH.
    - cbn [flat_map]. rewrite filter_app, app_length, IH. clear IH.
      assert (F : length (filter P (map (fun y => join_row on lc rc x (Some y)) (filter (matches on x) R))) = list_sum (map (fun y => if P y then (if matches on y x then 1 else 0) else 0) R)).
      { induction R as [|y R IH]; [reflexivity|]. cbn [filter map list_sum fold_right]. fold (list_sum (map (fun y => if P y then (if matches on y x then 1 else 0) else 0) R)). rewrite (matches_swap on y x).
        destruct (matches on x y) eqn:M; [|rewrite IH; now destruct (P y)]. cbn [map filter].
        assert (PJ : P (join_row on lc rc x (Some y)) = P x) by (apply key_same; intros k K; apply QueryLaws.getv_joined; exact (I k K)).
        assert (PY : P y = P x) by (apply key_same; exact (matches_keys on keys x y I M)). rewrite PJ, PY. destruct (P x); cbn [length]; rewrite IH; reflexivity. }
      rewrite F. clear F. induction R as [|y R IH]; [reflexivity|]. cbn [map list_sum fold_right].
      fold (list_sum (map (fun y => if P y then (if matches on y x then 1 else 0) else 0) R)) (list_sum (map (fun y => if P y then length (filter (matches on y) L) else 0) R)) (list_sum (map (fun y => if P y then length (filter (matches on y) (x :: L)) else 0) R)).
      rewrite <- IH. cbn [filter]. destruct (P y), (matches on y x); cbn [length]; lia.
Qed.
Lemma join_pairs_left keys on lc rc r (L R : table) : incl keys on -> let P := fun r0 => forallb (fun c => value_eqb (getv c r) (getv c r0)) keys in
  length (rows_with_key keys r (inner_join on lc rc L R)) = list_sum (map (fun x => if P x then length (filter (matches on x) R) else 0) L).
Proof.
  intros I P. unfold rows_with_key, inner_join. fold P. induction L as [|x L IH]; [reflexivity|]. cbn [flat_map map list_sum fold_right]. rewrite filter_app, app_length, IH. f_equal.
  assert (PJ : forall y, P (join_row on lc rc x (Some y)) = P x) by (intros y; apply key_same; intros k K; apply QueryLaws.getv_joined; exact (I k K)).
  induction (filter (matches on x) R) as [|y l IHl]; cbn [map filter length]; [now destruct (P x)|]. rewrite PJ. destruct (P x); cbn [length]; rewrite IHl; reflexivity.
Qed.
(** The sides of a join can be swapped. *)
Lemma spread_swap keys on lc rc lc' rc' (L R : table) : incl keys on -> spread keys 1 1 (inner_join on lc rc L R) (inner_join on lc' rc' R L).
Proof. intros I r. rewrite (join_pairs keys on lc rc r L R I), (join_pairs_left keys on lc' rc' r R L I). lia. Qed.
Lemma spread_join_right keys on lc rc n (L R : table) : incl keys on -> (forall y, length (filter (matches on y) L) <= n) -> spread keys 0 n R (inner_join on lc rc L R).
Proof.
  intros I B r. split; [lia|]. pose proof (join_pairs keys on lc rc r L R I) as E. cbv zeta in E. rewrite E. clear E. unfold rows_with_key. set (P := fun r0 => forallb (fun c => value_eqb (getv c r) (getv c r0)) keys).
  change (list_sum (map (fun y => if P y then length (filter (matches on y) L) else 0) R) <= n * length (filter P R)). clearbody P.
  induction R as [|y R IH]; [cbn; lia|]. cbn [map list_sum fold_right filter]. fold (list_sum (map (fun y => if P y then length (filter (matches on y) L) else 0) R)).
  specialize (B y). destruct (P y); cbn [length]; lia.
Qed.
Lemma spread_join_left keys on lc rc n (L R : table) : incl keys on -> (forall x, length (filter (matches on x) R) <= n) -> spread keys 0 n L (inner_join on lc rc L R).
Proof.
  intros I B. unfold inner_join. apply spread_flat.
  - intros x y J k K. apply in_map_iff in J as (z & <- & _). apply QueryLaws.getv_joined, I, K.
  - intros x. rewrite map_length. split; [lia|]. exact (B x).
Qed.

(** ** The steps *)
Section Steps.
Variables (W : world) (l2 : bool) (cat : catalog) (data : dict vtab).
Notation vis := (visit W l2 cat data).
Lemma flat_row_key keys f new limit : NoDup (dkeys (sc_cols new)) -> (forall k, In k keys -> ~ In k (dkeys (sc_cols new))) ->
  forall x y, In y (flat_map_row f new true limit x) -> forall k, In k keys -> getv k y = getv k x.
Proof.
  intros N I x y J k K. unfold flat_map_row in J. apply in_map_iff in J as (o & <- & _).
  rewrite getv_merge by (unfold new_cells; now rewrite dkeys_select).
  destruct (dmem k _) eqn:D; [|reflexivity]. apply dmem_In in D. unfold new_cells in D. rewrite dkeys_select in D. destruct (I k K D).
Qed.
Lemma derived_rows keys s c q lo hi : derived cat keys s c q lo hi -> forall T cs T' cs', vis c = Ok (T, cs) -> vis q = Ok (T', cs') ->
  in_collection (v_place T') = in_collection (v_place T) /\ ((sc_id s = None -> in_collection (v_place T) = false) -> spread keys lo hi (v_rows T) (v_rows T')).
Proof.
  intros D. induction D; intros T cs T' cs' V V'.
  16: { cbn [visit] in V'. apply bind_ok in V' as ((l, lcs) & VL & V'). apply bind_ok in V' as ((t, tcs) & VC & V'). destruct (IHD T cs t tcs V VC) as (P & S). clear IHD.
    unfold visit_join_private in V'. apply bind_ok in V' as (u & _ & V'). apply bind_ok in V' as (((p & lrows) & rrows) & Z & V'). apply bind_ok in V' as (d & _ & V').
    injection V' as <- <-. cbn [v_place v_rows join_columns] in *. destruct (v_place l); try discriminate Z; destruct (v_place t) eqn:PT; try discriminate Z.
    + apply bind_ok in Z as (u1 & _ & Z). apply bind_ok in Z as (u2 & _ & Z). injection Z as <- <- <-. split; [exact P|]. intros H1. rewrite (H1 H0) in P. discriminate P.
    + injection Z as <- <- <-. split; [exact P|]. intros H1. rewrite <- (Nat.mul_0_r lo). eapply spread_trans; [exact (S H1)|].
      rewrite <- (Nat.mul_0_r 0), <- (Nat.mul_1_l (kept_per_key sl)). eapply spread_trans; [apply spread_sub, (proj1 (OperationsProofs.truncate_spec (w_row_order W) sr on _))|].
      apply spread_join_right; [exact H|]. intros x. exact (RowStability.truncate_few (w_row_order W) sl on (v_rows l) x). }
  1: { rewrite V in V'. injection V' as <- <-. split; [reflexivity|]. intros _ r. lia. }
  all: cbn [visit] in V'; apply bind_ok in V' as ((t, tcs) & VC & V'); destruct (IHD T cs t tcs V VC) as (P & S); clear IHD.
  - unfold visit_select in V'. apply bind_ok in V' as (d & _ & V'). apply bind_ok in V' as (u & _ & V'). injection V' as <- <-. cbn [v_place v_rows].
    split; [exact P|]. intros H0. rewrite <- (Nat.mul_1_r lo), <- (Nat.mul_1_r hi). eapply spread_trans; [exact (S H0)|]. apply spread_map. intros x k I. apply QueryLaws.getv_select, H, I.
  - unfold visit_rename in V'. apply bind_ok in V' as (u & _ & V'). injection V' as <- <-. cbn [v_place v_rows].
    split; [rewrite <- P; now destruct (v_place t)|]. intros H0. rewrite <- (Nat.mul_1_r lo), <- (Nat.mul_1_r hi). eapply spread_trans; [exact (S H0)|]. apply spread_map. intros x k I. apply QueryLaws.getv_rename; apply (H k I).
  - unfold visit_map in V'. apply bind_ok in V' as (u & _ & V'). apply bind_ok in V' as (d & _ & V'). injection V' as <- <-. cbn [v_place v_rows].
    split; [exact P|]. intros H1. rewrite <- (Nat.mul_1_r lo), <- (Nat.mul_1_r hi). eapply spread_trans; [exact (S H1)|]. apply spread_map. intros x k I.
    apply (flat_row_key keys (fun r => [f r]) new None H H0 x); [left; reflexivity|exact I].
  - unfold visit_replace_null in V'. apply bind_ok in V' as (u & _ & V'). apply bind_ok in V' as (an & _ & V'). apply bind_ok in V' as (m & M & V'). injection V' as <- <-. cbn [v_place v_rows].
    split; [exact P|]. intros H1. rewrite <- (Nat.mul_1_r lo), <- (Nat.mul_1_r hi). eapply spread_trans; [exact (S H1)|]. apply spread_map. intros x k I.
    rewrite QueryLaws.getv_nans, QueryLaws.getv_nulls; [reflexivity| |]; intros J; apply QueryLaws.filtered_keys in J; exact (H0 k I (QueryLaws.replaced_keys _ _ _ _ _ H M J)).
  - unfold visit_replace_inf in V'. apply bind_ok in V' as (an & _ & V'). apply bind_ok in V' as (u & _ & V'). apply bind_ok in V' as (u' & _ & V'). injection V' as <- <-. cbn [v_place v_rows].
    split; [exact P|]. intros H1. rewrite <- (Nat.mul_1_r lo), <- (Nat.mul_1_r hi). eapply spread_trans; [exact (S H1)|]. apply spread_map. intros x k I.
    destruct rw as [|p0 rw0]; [congruence|]. apply QueryLaws.getv_infs. exact (H0 k I).
  - cbn [visit_filter] in V'. injection V' as <- <-. cbn [v_place v_rows]. split; [exact P|]. intros H0.
    rewrite <- (Nat.mul_0_r lo), <- (Nat.mul_1_r hi). eapply spread_trans; [exact (S H0)|]. apply spread_filter.
  - unfold visit_drop_null in V'. apply bind_ok in V' as (an & _ & V'). apply bind_ok in V' as (u & _ & V'). apply bind_ok in V' as (u' & _ & V'). apply bind_ok in V' as (u'' & _ & V'). injection V' as <- <-. cbn [v_place v_rows].
    split; [exact P|]. intros H0. rewrite <- (Nat.mul_0_r lo), <- (Nat.mul_1_r hi). eapply spread_trans; [exact (S H0)|]. apply spread_sub.
    eapply sub_table_trans; apply sub_table_filter.
  - unfold visit_drop_inf in V'. apply bind_ok in V' as (an & _ & V'). apply bind_ok in V' as (u & _ & V'). apply bind_ok in V' as (columns & _ & V'). injection V' as <- <-. cbn [v_place v_rows].
    split; [exact P|]. intros H0. rewrite <- (Nat.mul_0_r lo), <- (Nat.mul_1_r hi). eapply spread_trans; [exact (S H0)|]. apply spread_filter.
  - cbn [visit_enforce] in V'. apply bind_ok in V' as (y & EN & V'). injection V' as <- <-. cbn [v_place v_rows]. split.
    + rewrite <- P. destruct k; cbn [enforce t_place] in EN; destruct (v_place t); try discriminate; injection EN as <-; reflexivity.
    + intros H0. rewrite <- (Nat.mul_0_r lo), <- (Nat.mul_1_r hi). eapply spread_trans; [exact (S H0)|]. apply spread_sub.
      apply enforce_ok in EN as (i & -> & _). apply enforce_rows_sub.
  - unfold visit_flat_map in V'. apply bind_ok in V' as (y & Y & V'). apply bind_ok in V' as (cs'' & _ & V'). injection V' as <- <-. cbn [v_place v_rows].
    destruct (in_collection (v_place t)) eqn:IC.
    + apply bind_ok in Y as (u & _ & Y). apply bind_ok in Y as (u' & _ & Y). injection Y as <-. cbn [fst snd]. split; [congruence|]. intros H2. rewrite (H2 H1) in P. discriminate.
    + assert (SY : snd y = Some (Z.to_nat n) /\ in_collection (fst y) = false).
      { destruct (sc_group new); [destruct (v_place t); try discriminate|]; injection Y as <-; cbn [fst snd]; auto. }
      destruct SY as (-> & ->). split; [exact P|]. intros H2. rewrite <- (Nat.mul_0_r lo). eapply spread_trans; [exact (S H2)|].
      apply spread_flat; [apply flat_row_key; assumption|]. intros x. split; [lia|]. unfold flat_map_row. rewrite map_length. apply firstn_le_length.
  - unfold visit_flat_map in V'. apply bind_ok in V' as (y & Y & V'). apply bind_ok in V' as (cs'' & _ & V'). injection V' as <- <-. cbn [v_place v_rows].
    assert (IC : in_collection (fst y) = in_collection (v_place t)).
    { destruct (in_collection (v_place t)) eqn:IC; [apply bind_ok in Y as (u & _ & Y); apply bind_ok in Y as (u' & _ & Y); injection Y as <-; exact IC|].
      destruct max_rows; [|discriminate]. destruct (sc_group new); [destruct (v_place t); try discriminate|]; injection Y as <-; cbn [fst snd]; auto. }
    split; [congruence|]. intros H2. rewrite <- (Nat.mul_0_r lo). eapply spread_trans; [exact (S H2)|].
    apply spread_flat; [apply flat_row_key; assumption|]. intros x. split; [lia|]. unfold flat_map_row. rewrite map_length. specialize (H1 x).
    destruct (snd y) as [z|]; [|exact H1]. rewrite firstn_length. lia.
  - unfold visit_join_public in V'. apply bind_ok in V' as (f & F & V'). apply bind_ok in V' as (pd & _ & V'). apply bind_ok in V' as (ps & _ & V'). apply bind_ok in V' as (d & _ & V'). apply bind_ok in V' as (u & _ & V').
    injection V' as <- <-. cbn [v_place v_rows join_columns]. split; [exact P|]. intros H1. rewrite andb_false_r. rewrite <- (Nat.mul_0_r lo). eapply spread_trans; [exact (S H1)|].
    unfold inner_join. apply spread_flat.
    + intros x y J k I. apply in_map_iff in J as (z & <- & _). apply QueryLaws.getv_joined. apply H, I.
    + intros x. rewrite map_length. split; [lia|]. exact (H0 f x F).
  - unfold visit_join_public in V'. apply bind_ok in V' as (f & F & V'). apply bind_ok in V' as (pd & _ & V'). apply bind_ok in V' as (ps & _ & V'). apply bind_ok in V' as (d & _ & V'). apply bind_ok in V' as (u & _ & V').
    injection V' as <- <-. cbn [v_place v_rows join_columns]. split; [exact P|]. intros H2. rewrite P, (H2 H0). cbn [negb andb String.eqb Ascii.eqb Bool.eqb]. rewrite <- (Nat.mul_1_r lo). eapply spread_trans; [exact (S H2)|].
    unfold left_join. apply spread_flat.
    + intros x y J k I. destruct (filter (matches on x) (frame_rows f)) as [|z l]; [destruct J as [<-|[]]; apply QueryLaws.getv_joined, H, I|].
      apply in_map_iff in J as (z' & <- & _). apply QueryLaws.getv_joined, H, I.
    + intros x. pose proof (H1 f x F) as B. unfold rows_with_key in B. change (filter _ (frame_rows f)) with (filter (matches on x) (frame_rows f)) in B.
      destruct (filter (matches on x) (frame_rows f)) as [|z l]; [cbn [length]; lia|]. rewrite map_length. cbn [length] in *. lia.
  - apply bind_ok in V' as ((r, rcs) & VR & V'). unfold visit_join_private in V'. apply bind_ok in V' as (u & _ & V'). apply bind_ok in V' as (((p & lrows) & rrows) & Z & V'). apply bind_ok in V' as (d & _ & V').
    injection V' as <- <-. cbn [v_place v_rows join_columns] in *. destruct (v_place t) eqn:PT; try discriminate Z; destruct (v_place r); try discriminate Z.
    + apply bind_ok in Z as (u1 & _ & Z). apply bind_ok in Z as (u2 & _ & Z). injection Z as <- <- <-. split; [exact P|]. intros H1. rewrite (H1 H0) in P. discriminate P.
    + injection Z as <- <- <-. split; [exact P|]. intros H1. rewrite <- (Nat.mul_0_r lo). eapply spread_trans; [exact (S H1)|].
      rewrite <- (Nat.mul_0_r 0), <- (Nat.mul_1_l (kept_per_key sr)). eapply spread_trans; [apply spread_sub, (proj1 (OperationsProofs.truncate_spec (w_row_order W) sl on _))|].
      apply spread_join_left; [exact H|]. intros x. exact (RowStability.truncate_few (w_row_order W) sr on (v_rows r) x).
Qed.
End Steps.

(** ** The property *)
Definition same_cells (keys : list string) (r r' : rec) : Prop := map (fun k => getv k r) keys = map (fun k => getv k r') keys.
Lemma same_cells_rows keys r r' (T : table) : same_cells keys r r' -> rows_with_key keys r T = rows_with_key keys r' T.
Proof.
  intros E. unfold rows_with_key. apply filter_ext. intros x. unfold same_cells in E. induction keys as [|k ks IH]; [reflexivity|]. cbn [map] in E. injection E as E1 E2.
  cbn [forallb]. rewrite E1. f_equal. exact (IH E2).
Qed.
Lemma some_row keys r (T : table) : 0 < length (rows_with_key keys r T) <-> In (map (fun k => getv k r) keys) (cells_in keys T).
Proof.
  unfold cells_in. rewrite in_map_iff. split.
  - intros L. destruct (rows_with_key keys r T) as [|x l] eqn:E; [cbn in L; lia|]. assert (I : In x (rows_with_key keys r T)) by (rewrite E; left; reflexivity).
    apply filter_In in I as (I & M). exists x. split; [|exact I]. symmetry. now apply same_key_iff.
  - intros (x & E & I). assert (J : In x (rows_with_key keys r T)) by (apply filter_In; split; [exact I|now apply same_key_iff]). destruct (rows_with_key keys r T); [destruct J|cbn; lia].
Qed.
Lemma spread_keys keys lo hi (a b : table) vs : spread keys lo hi a b -> In vs (cells_in keys b) -> In vs (cells_in keys a).
Proof.
  intros S I. unfold cells_in in I. apply in_map_iff in I as (x & <- & I). apply some_row. assert (J : 0 < length (rows_with_key keys x b)) by (apply some_row, in_map_iff; eauto).
  specialize (S x). nia.
Qed.
Lemma spread_keys_back keys lo hi (a b : table) vs : spread keys lo hi a b -> 0 < lo -> In vs (cells_in keys a) -> In vs (cells_in keys b).
Proof.
  intros S L I. unfold cells_in in I. apply in_map_iff in I as (x & <- & I). apply some_row. assert (J : 0 < length (rows_with_key keys x a)) by (apply some_row, in_map_iff; eauto).
  specialize (S x). nia.
Qed.
Lemma no_collection l2 s T : validate l2 s T = Ok tt -> sc_id s = None -> in_collection (v_place T) = false.
Proof.
  intros VA ID. unfold validate in VA. apply bind_ok in VA as (p & EP & VA). apply bind_ok in VA as ([] & _ & VA). apply raise_if_ok in VA. apply negb_false_iff in VA.
  apply place_eqb_eq in VA. unfold expected_place in EP. rewrite ID in EP. rewrite VA. destruct (sc_group s); injection EP as <-; reflexivity.
Qed.
Lemma derived_spread W l2 cat data keys s c q lo hi T cs T' cs' : derived cat keys s c q lo hi -> schema_of (w_cond_ok W) cat q = Ok s ->
  build_transformation W l2 cat data c = Ok (T, cs) -> build_transformation W l2 cat data q = Ok (T', cs') -> spread keys lo hi (v_rows T) (v_rows T').
Proof.
  intros D S BT BT'. apply build_transformation_ok in BT as (s0 & _ & V & _). apply build_transformation_ok in BT' as (s1 & S1 & V' & VA). rewrite S in S1. injection S1 as <-.
  destruct (derived_rows W l2 cat data keys s c q lo hi D T cs T' cs' V V') as (P & SP). apply SP. intros ID. rewrite <- P. exact (no_collection l2 s T' VA ID).
Qed.

(** The count for a key is between [lo] and [hi] times the count before the steps.  Grouping by columns,
    no keys appear, and none disappear unless rows were dropped. *)
Theorem C85_counts : forall R W K A auto so mu1 mu2 cat data c q s k lo hi o1 o2 m1 m2 co1 co2 t1 t2,
  exact_core K A -> (forall l, Permutation (so l) l) -> constraints_hold cat data -> catalog_made cat ->
  exact_answer R W K auto so mu1 cat data (GroupByCount c k o1 m1 co1) t1 ->
  exact_answer R W K auto so mu2 cat data (GroupByCount q k o2 m2 co2) t2 ->
  asks_gaussian mu1 m1 = asks_gaussian mu2 m2 ->
  holds_for W cat data (asks_gaussian mu2 m2) c -> holds_for W cat data (asks_gaussian mu2 m2) q ->
  keys_as_declared k -> ~ In o1 (keys_columns k) -> ~ In o2 (keys_columns k) ->
  schema_of (w_cond_ok W) cat q = Ok s -> derived cat (keys_columns k) s c q lo hi ->
  (forall r1 r2, In r1 t1 -> In r2 t2 -> same_cells (keys_columns k) r1 r2 ->
     exists n1 n2, whole_number o1 r1 n1 /\ whole_number o2 r2 n2 /\ lo * n1 <= n2 <= hi * n1)
  /\ (forall l, k = KCols l -> forall vs, (In vs (cells_in l t2) -> In vs (cells_in l t1)) /\ (0 < lo -> In vs (cells_in l t1) -> In vs (cells_in l t2))).
Proof.
  intros R W K A auto so mu1 mu2 cat data c q s k lo hi o1 o2 m1 m2 co1 co2 t1 t2 EC SO HOLD MADE (q1 & b1 & a1 & B1 & L1 & C1 & RUN1) (q2 & b2 & a2 & B2 & L2 & C2 & RUN2) G H1 H2 KD N1 N2 S D.
  rewrite <- G in H1.
  destruct (C66_counts_exact R W K A auto so mu1 cat data b1 q1 _ k o1 m1 co1 a1 t1 EC SO HOLD MADE B1 H1 KD N1 L1 C1 RUN1) as (T & cs & BT & X1 & Y1).
  destruct (C66_counts_exact R W K A auto so mu2 cat data b2 q2 _ k o2 m2 co2 a2 t2 EC SO HOLD MADE B2 H2 KD N2 L2 C2 RUN2) as (T' & cs' & BT' & X2 & Y2).
  rewrite G in BT. pose proof (derived_spread W _ cat data _ s c q lo hi T cs T' cs' D S BT BT') as SP. split.
  - intros r1 r2 I1 I2 E. eexists _, _. split; [exact (X1 r1 I1)|]. split; [exact (X2 r2 I2)|]. rewrite (same_cells_rows _ _ _ _ E). apply SP.
  - intros l -> vs. cbn [keys_columns] in SP. destruct (Y1 l eq_refl) as (_ & Z1), (Y2 l eq_refl) as (_ & Z2). split.
    + intros I. apply Z1. apply (spread_keys l lo hi _ _ vs SP). apply Z2. exact I.
    + intros P I. apply Z2. apply (spread_keys_back l lo hi _ _ vs SP P). apply Z1. exact I.
Qed.
Print Assumptions C85_counts.

(** Two filters of which each row passes exactly one: their counts add up to the count without them. *)
Theorem C85_filters_split : forall R W K A auto so mu0 mu1 mu2 cat data c a b k o0 o1 o2 m0 m1 m2 co0 co1 co2 t0 t1 t2 T cs,
  exact_core K A -> (forall l, Permutation (so l) l) -> constraints_hold cat data -> catalog_made cat ->
  exact_answer R W K auto so mu0 cat data (GroupByCount c k o0 m0 co0) t0 ->
  exact_answer R W K auto so mu1 cat data (GroupByCount (Filter c a) k o1 m1 co1) t1 ->
  exact_answer R W K auto so mu2 cat data (GroupByCount (Filter c b) k o2 m2 co2) t2 ->
  asks_gaussian mu1 m1 = asks_gaussian mu0 m0 -> asks_gaussian mu2 m2 = asks_gaussian mu0 m0 ->
  holds_for W cat data (asks_gaussian mu0 m0) c -> build_transformation W (asks_gaussian mu0 m0) cat data c = Ok (T, cs) ->
  (forall r, In r (v_rows T) -> w_cond_holds W a r = true <-> w_cond_holds W b r <> true) ->
  keys_as_declared k -> ~ In o0 (keys_columns k) -> ~ In o1 (keys_columns k) -> ~ In o2 (keys_columns k) ->
  forall r0 r1 r2, In r0 t0 -> In r1 t1 -> In r2 t2 -> same_cells (keys_columns k) r0 r1 -> same_cells (keys_columns k) r0 r2 ->
  exists n1 n2, whole_number o1 r1 n1 /\ whole_number o2 r2 n2 /\ whole_number o0 r0 (n1 + n2).
Proof.
  intros R W K A auto so mu0 mu1 mu2 cat data c a b k o0 o1 o2 m0 m1 m2 co0 co1 co2 t0 t1 t2 T cs EC SO HOLD MADE (q0 & b0 & a0 & B0 & L0 & C0 & RUN0) (q1 & b1 & a1 & B1 & L1 & C1 & RUN1) (q2 & b2 & a2 & B2 & L2 & C2 & RUN2)
    G1 G2 H BT SPLIT KD N0 N1 N2 r0 r1 r2 I0 I1 I2 E1 E2.
  assert (HF : forall x, holds_for W cat data (asks_gaussian mu0 m0) (Filter c x)) by (intros x; exact H).
  pose proof (HF a) as H1. rewrite <- G1 in H1. pose proof (HF b) as H2. rewrite <- G2 in H2.
  destruct (C66_counts_exact R W K A auto so mu0 cat data b0 q0 _ k o0 m0 co0 a0 t0 EC SO HOLD MADE B0 H KD N0 L0 C0 RUN0) as (T0 & cs0 & BT0 & X0 & _).
  destruct (C66_counts_exact R W K A auto so mu1 cat data b1 q1 _ k o1 m1 co1 a1 t1 EC SO HOLD MADE B1 H1 KD N1 L1 C1 RUN1) as (T1 & cs1 & BT1 & X1 & _).
  destruct (C66_counts_exact R W K A auto so mu2 cat data b2 q2 _ k o2 m2 co2 a2 t2 EC SO HOLD MADE B2 H2 KD N2 L2 C2 RUN2) as (T2 & cs2 & BT2 & X2 & _).
  rewrite BT in BT0. injection BT0 as <- <-. rewrite G1 in BT1. rewrite G2 in BT2.
  apply build_transformation_ok in BT as (s & _ & V & _). apply build_transformation_ok in BT1 as (s1 & _ & V1 & _). apply build_transformation_ok in BT2 as (s2 & _ & V2 & _).
  cbn [visit] in V1, V2. rewrite V in V1, V2. cbn [bind visit_filter] in V1, V2. injection V1 as <- _. injection V2 as <- _. cbn [v_rows] in *.
  eexists _, _. split; [exact (X1 r1 I1)|]. split; [exact (X2 r2 I2)|]. unfold whole_number. rewrite (X0 r0 I0). do 3 f_equal.
  rewrite <- (same_cells_rows _ _ _ (filter (w_cond_holds W a) (v_rows T)) E1), <- (same_cells_rows _ _ _ (filter (w_cond_holds W b) (v_rows T)) E2).
  clear -SPLIT. unfold rows_with_key. set (P := fun r => forallb _ _). clearbody P. induction (v_rows T) as [|x l IH]; [reflexivity|]. specialize (IH (fun r I => SPLIT r (or_intror I))). specialize (SPLIT x (or_introl eq_refl)).
  cbn [filter]. destruct (w_cond_holds W a x) eqn:QA, (w_cond_holds W b x) eqn:QB; cbn [filter].
  - exfalso. apply (proj1 SPLIT eq_refl). reflexivity.
  - destruct (P x); cbn [length]; lia.
  - destruct (P x); cbn [length]; lia.
  - exfalso. assert (false = true) by (apply SPLIT; discriminate). discriminate.
Qed.
Print Assumptions C85_filters_split.

(** A stricter filter never counts more, and grouping by columns, shows no key that the other does not show. *)
Theorem C85_stricter_filter : forall R W K A auto so mu1 mu2 cat data c a b k o1 o2 m1 m2 co1 co2 t1 t2 T cs,
  exact_core K A -> (forall l, Permutation (so l) l) -> constraints_hold cat data -> catalog_made cat ->
  exact_answer R W K auto so mu1 cat data (GroupByCount (Filter c a) k o1 m1 co1) t1 ->
  exact_answer R W K auto so mu2 cat data (GroupByCount (Filter c b) k o2 m2 co2) t2 ->
  asks_gaussian mu1 m1 = asks_gaussian mu2 m2 ->
  holds_for W cat data (asks_gaussian mu2 m2) c -> build_transformation W (asks_gaussian mu2 m2) cat data c = Ok (T, cs) ->
  (forall r, In r (v_rows T) -> w_cond_holds W a r = true -> w_cond_holds W b r = true) ->
  keys_as_declared k -> ~ In o1 (keys_columns k) -> ~ In o2 (keys_columns k) ->
  (forall r1 r2, In r1 t1 -> In r2 t2 -> same_cells (keys_columns k) r1 r2 ->
     exists n1 n2, whole_number o1 r1 n1 /\ whole_number o2 r2 n2 /\ n1 <= n2)
  /\ (forall l, k = KCols l -> forall vs, In vs (cells_in l t1) -> In vs (cells_in l t2)).
Proof.
  intros R W K A auto so mu1 mu2 cat data c a b k o1 o2 m1 m2 co1 co2 t1 t2 T cs EC SO HOLD MADE (q1 & b1 & a1 & B1 & L1 & C1 & RUN1) (q2 & b2 & a2 & B2 & L2 & C2 & RUN2) G H BT IMP KD N1 N2.
  assert (HF : forall x, holds_for W cat data (asks_gaussian mu2 m2) (Filter c x)) by (intros x; exact H).
  pose proof (HF a) as H1. rewrite <- G in H1.
  destruct (C66_counts_exact R W K A auto so mu1 cat data b1 q1 _ k o1 m1 co1 a1 t1 EC SO HOLD MADE B1 H1 KD N1 L1 C1 RUN1) as (T1 & cs1 & BT1 & X1 & Y1).
  destruct (C66_counts_exact R W K A auto so mu2 cat data b2 q2 _ k o2 m2 co2 a2 t2 EC SO HOLD MADE B2 (HF b) KD N2 L2 C2 RUN2) as (T2 & cs2 & BT2 & X2 & Y2).
  rewrite G in BT1. apply build_transformation_ok in BT as (s & _ & V & _). apply build_transformation_ok in BT1 as (s1 & _ & V1 & _). apply build_transformation_ok in BT2 as (s2 & _ & V2 & _).
  cbn [visit] in V1, V2. rewrite V in V1, V2. cbn [bind visit_filter] in V1, V2. injection V1 as <- _. injection V2 as <- _. cbn [v_rows] in *.
  assert (SUB : filter (w_cond_holds W a) (v_rows T) = filter (w_cond_holds W a) (filter (w_cond_holds W b) (v_rows T))).
  { clear -IMP. induction (v_rows T) as [|x l IH]; [reflexivity|]. specialize (IH (fun r I => IMP r (or_intror I))). specialize (IMP x (or_introl eq_refl)). cbn [filter].
    destruct (w_cond_holds W a x) eqn:QA, (w_cond_holds W b x) eqn:QB; cbn [filter]; rewrite ?QA; try rewrite IH; try reflexivity. discriminate (IMP eq_refl). }
  assert (SP : spread (keys_columns k) 0 1 (filter (w_cond_holds W b) (v_rows T)) (filter (w_cond_holds W a) (v_rows T))) by (rewrite SUB; apply spread_filter).
  split.
  - intros r1 r2 I1 I2 E. eexists _, _. split; [exact (X1 r1 I1)|]. split; [exact (X2 r2 I2)|]. rewrite (same_cells_rows _ _ _ _ E). destruct (SP r2). lia.
  - intros l -> vs I. cbn [keys_columns] in SP. apply (proj2 (Y2 l eq_refl)). apply (spread_keys l 0 1 _ _ vs SP). apply (proj2 (Y1 l eq_refl)). exact I.
Qed.
Print Assumptions C85_stricter_filter.

(** The sides of a join of private tables can be swapped: the counts by join columns stay the same. *)
Theorem C85_swapped_joins : forall R W K A auto so mu1 mu2 cat data l r sl sr on k o1 o2 m1 m2 co1 co2 t1 t2,
  let c := JoinPrivate l r sl sr (Some on) in let q := JoinPrivate r l sr sl (Some on) in
  exact_core K A -> (forall l, Permutation (so l) l) -> constraints_hold cat data -> catalog_made cat ->
  exact_answer R W K auto so mu1 cat data (GroupByCount c k o1 m1 co1) t1 ->
  exact_answer R W K auto so mu2 cat data (GroupByCount q k o2 m2 co2) t2 ->
  asks_gaussian mu1 m1 = asks_gaussian mu2 m2 ->
  holds_for W cat data (asks_gaussian mu2 m2) c -> holds_for W cat data (asks_gaussian mu2 m2) q ->
  keys_as_declared k -> ~ In o1 (keys_columns k) -> ~ In o2 (keys_columns k) -> incl (keys_columns k) on ->
  (forall r1 r2, In r1 t1 -> In r2 t2 -> same_cells (keys_columns k) r1 r2 -> exists n, whole_number o1 r1 n /\ whole_number o2 r2 n)
  /\ (forall l, k = KCols l -> forall vs, In vs (cells_in l t1) <-> In vs (cells_in l t2)).
Proof.
  intros R W K A auto so mu1 mu2 cat data l r sl sr on k o1 o2 m1 m2 co1 co2 t1 t2 c q EC SO HOLD MADE (q1 & b1 & a1 & B1 & L1 & C1 & RUN1) (q2 & b2 & a2 & B2 & L2 & C2 & RUN2) G H1 H2 KD N1 N2 INC.
  rewrite <- G in H1.
  destruct (C66_counts_exact R W K A auto so mu1 cat data b1 q1 _ k o1 m1 co1 a1 t1 EC SO HOLD MADE B1 H1 KD N1 L1 C1 RUN1) as (T & cs & BT & X1 & Y1).
  destruct (C66_counts_exact R W K A auto so mu2 cat data b2 q2 _ k o2 m2 co2 a2 t2 EC SO HOLD MADE B2 H2 KD N2 L2 C2 RUN2) as (T' & cs' & BT' & X2 & Y2).
  rewrite G in BT. assert (SP : spread (keys_columns k) 1 1 (v_rows T) (v_rows T')).
  { apply build_transformation_ok in BT as (s & _ & V & _). apply build_transformation_ok in BT' as (s' & _ & V' & _). unfold c in V. unfold q in V'. cbn [visit] in V, V'.
    apply bind_ok in V as ((tl, lcs) & VL & V). apply bind_ok in V as ((tr, rcs) & VR & V). rewrite VL, VR in V'. cbn [bind] in V'. unfold visit_join_private in V, V'.
    apply bind_ok in V as (u & _ & V). apply bind_ok in V as (((p & lrows) & rrows) & Z & V). apply bind_ok in V as (d & _ & V). injection V as <- <-.
    apply bind_ok in V' as (u' & _ & V'). apply bind_ok in V' as (((p' & lrows') & rrows') & Z' & V'). apply bind_ok in V' as (d' & _ & V'). injection V' as <- <-. cbn [v_rows join_columns] in *.
    destruct (v_place tl), (v_place tr); try discriminate Z.
    all: try (destruct sl, sr; try discriminate Z; injection Z as <- <- <-; injection Z' as <- <- <-; apply spread_swap; exact INC).
    apply bind_ok in Z as (w1 & _ & Z). apply bind_ok in Z as (w2 & _ & Z). injection Z as <- <- <-. apply bind_ok in Z' as (w3 & _ & Z'). apply bind_ok in Z' as (w4 & _ & Z'). injection Z' as <- <- <-. apply spread_swap. exact INC. }
  split.
  - intros r1 r2 I1 I2 E. pose proof (X1 r1 I1) as W1. pose proof (X2 r2 I2) as W2. rewrite (same_cells_rows _ _ _ _ E) in W1. destruct (SP r2) as (S1 & S2).
    replace (length (rows_with_key (keys_columns k) r2 (v_rows T'))) with (length (rows_with_key (keys_columns k) r2 (v_rows T))) in W2 by lia. eexists. split; [exact W1|exact W2].
  - intros l0 -> vs. cbn [keys_columns] in SP. destruct (Y1 l0 eq_refl) as (_ & Z1), (Y2 l0 eq_refl) as (_ & Z2). split; intros I.
    + apply Z2. apply (spread_keys_back l0 1 1 _ _ vs SP); [lia|]. apply Z1. exact I.
    + apply Z1. apply (spread_keys l0 1 1 _ _ vs SP). apply Z2. exact I.
Qed.
Print Assumptions C85_swapped_joins.

(** Distinct counts of columns that the steps leave alone never grow, and stay the same unless rows
    were dropped. *)
Lemma distinct_incl keys cols r (a b : table) : (forall vs, In vs (cells_in (keys ++ cols) b) -> In vs (cells_in (keys ++ cols) a)) ->
  distinct_count cols (rows_with_key keys r b) <= distinct_count cols (rows_with_key keys r a).
Proof.
  intros H. unfold distinct_count. apply NoDup_incl_length; [apply NoDup_nodup|]. intros vs V. apply nodup_In in V. apply nodup_In. apply in_map_iff in V as (y & <- & V).
  apply filter_In in V as (V & M). assert (J : In (map (fun k => getv k y) (keys ++ cols)%list) (cells_in (keys ++ cols)%list a)) by (apply H, in_map_iff; eauto).
  apply in_map_iff in J as (x & E & J). rewrite !map_app in E. apply in_map_iff. exists x.
  assert (E' : map (fun k => getv k x) keys = map (fun k => getv k y) keys /\ map (fun k => getv k x) cols = map (fun k => getv k y) cols).
  { clear -E. induction keys as [|k ks IH]; [split; [reflexivity|exact E]|]. cbn [map app] in E. injection E as E1 E. destruct (IH E) as (E2 & E3). split; [cbn [map]; congruence|exact E3]. }
  destruct E' as (E1 & E2). split; [exact E2|]. apply filter_In. split; [exact J|]. apply same_key_iff. rewrite E1. now apply same_key_iff.
Qed.
Theorem C85_distinct_counts : forall R W K A auto so mu1 mu2 cat data c q s k cols lo hi o1 o2 m1 m2 co1 co2 t1 t2,
  exact_core K A -> (forall l, Permutation (so l) l) -> constraints_hold cat data -> catalog_made cat ->
  exact_answer R W K auto so mu1 cat data (GroupByCountDistinct c k cols o1 m1 co1) t1 ->
  exact_answer R W K auto so mu2 cat data (GroupByCountDistinct q k cols o2 m2 co2) t2 ->
  asks_gaussian mu1 m1 = asks_gaussian mu2 m2 ->
  holds_for W cat data (asks_gaussian mu2 m2) c -> holds_for W cat data (asks_gaussian mu2 m2) q ->
  keys_as_declared k -> ~ In o1 (keys_columns k) -> ~ In o2 (keys_columns k) -> cols <> [] ->
  schema_of (w_cond_ok W) cat q = Ok s -> derived cat (keys_columns k ++ cols) s c q lo hi ->
  forall r1 r2, In r1 t1 -> In r2 t2 -> same_cells (keys_columns k) r1 r2 ->
  exists n1 n2, whole_number o1 r1 n1 /\ whole_number o2 r2 n2 /\ n2 <= n1 /\ (0 < lo -> n2 = n1).
Proof.
  intros R W K A auto so mu1 mu2 cat data c q s k cols lo hi o1 o2 m1 m2 co1 co2 t1 t2 EC SO HOLD MADE (q1 & b1 & a1 & B1 & L1 & C1 & RUN1) (q2 & b2 & a2 & B2 & L2 & C2 & RUN2) G H1 H2 KD N1 N2 NE S D r1 r2 I1 I2 E.
  rewrite <- G in H1.
  destruct (C66_distinct_counts_exact R W K A auto so mu1 cat data b1 q1 _ k cols o1 m1 co1 a1 t1 EC SO HOLD MADE B1 H1 KD N1 L1 C1 RUN1) as (T & cs & s1 & BT & _ & X1 & _).
  destruct (C66_distinct_counts_exact R W K A auto so mu2 cat data b2 q2 _ k cols o2 m2 co2 a2 t2 EC SO HOLD MADE B2 H2 KD N2 L2 C2 RUN2) as (T' & cs' & s2 & BT' & _ & X2 & _).
  rewrite G in BT. pose proof (derived_spread W _ cat data _ s c q lo hi T cs T' cs' D S BT BT') as SP.
  assert (CE : forall d, (match cols with [] => d | _ => cols end) = cols) by (intros d; now destruct cols).
  rewrite CE in X1, X2. eexists _, _. split; [exact (X1 r1 I1)|]. split; [exact (X2 r2 I2)|]. rewrite (same_cells_rows _ _ _ (v_rows T) E).
  assert (LE : distinct_count cols (rows_with_key (keys_columns k) r2 (v_rows T')) <= distinct_count cols (rows_with_key (keys_columns k) r2 (v_rows T))) by (apply distinct_incl; intros vs; exact (spread_keys _ lo hi _ _ vs SP)).
  split; [exact LE|]. intros P. apply Nat.le_antisymm; [exact LE|]. apply distinct_incl. intros vs. exact (spread_keys_back _ lo hi _ _ vs SP P).
Qed.
Print Assumptions C85_distinct_counts.

(** Sums, averages, variances, quantiles and bounds: steps that turn each row into exactly one and leave
    the keys and the measure alone change no answer, provided the library reads the measure only. *)
Definition reads_only (A : agg -> table -> list value) (a : agg) (me : string) : Prop :=
  forall rows rows', Permutation (map (getv me) rows) (map (getv me) rows') -> A a rows = A a rows'.
Definition clean_value (bounds : option (pynum * pynum)) (v : value) : list value :=
  match v with
  | VNull | VFloat FNan => []
  | VFloat FPInf => match bounds with Some (_, hi) => [VFloat (to_float hi)] | None => [] end
  | VFloat FNInf => match bounds with Some (lo, _) => [VFloat (to_float lo)] | None => [] end
  | _ => [v]
  end.
Lemma getv_set_same m v r : getv m r <> VNull -> getv m (set_cell m v r) = v.
Proof.
  unfold getv, set_cell. intros N. induction r as [|(x & w) r IH]; [now contradiction N|]. cbn [map dget fst snd] in *.
  destruct (String.eqb_spec x m) as [->|D]; cbn [fst snd]; [now rewrite String.eqb_refl|].
  destruct (String.eqb_spec m x) as [->|D']; [congruence|]. exact (IH N).
Qed.
Lemma getv_set_other m v r k : k <> m -> getv k (set_cell m v r) = getv k r.
Proof.
  unfold getv, set_cell. intros N. induction r as [|(x & w) r IH]; [reflexivity|]. cbn [map dget fst snd] in *.
  destruct (String.eqb_spec x m) as [->|D]; cbn [fst snd]; [destruct (String.eqb_spec k m); [contradiction|exact IH]|].
  destruct (String.eqb k x); [reflexivity|exact IH].
Qed.
Lemma clean_keeps m b x y k : In y (clean_row m b x) -> k <> m -> getv k y = getv k x.
Proof.
  unfold clean_row. intros I N. destruct (getv m x) as [|z|f|u|u|u]; try (destruct I as [<-|[]]; reflexivity); try destruct I.
  destruct f; try destruct b as [(lo & hi)|]; repeat (destruct I as [<-|I]; [try reflexivity; now apply getv_set_other|]); destruct I.
Qed.
Lemma clean_cell m b x : map (getv m) (clean_row m b x) = clean_value b (getv m x).
Proof.
  unfold clean_row, clean_value. destruct (getv m x) as [|z|f|u|u|u] eqn:E; cbn [map]; rewrite ?E; try reflexivity.
  destruct f; try destruct b as [(lo & hi)|]; cbn [map]; rewrite ?E; try reflexivity; rewrite getv_set_same; try reflexivity; rewrite E; discriminate.
Qed.
Lemma cleaned_values keys m b r : ~ In m keys -> forall T : table,
  map (getv m) (rows_with_key keys r (flat_map (clean_row m b) T)) = flat_map (clean_value b) (map (getv m) (rows_with_key keys r T)).
Proof.
  intros N T. unfold rows_with_key. induction T as [|x T IH]; [reflexivity|]. cbn [flat_map]. rewrite filter_app, map_app, IH. cbn [filter].
  set (P := fun r0 => forallb (fun c => value_eqb (getv c r) (getv c r0)) keys) in *. change (forallb (fun c => value_eqb (getv c r) (getv c x)) keys) with (P x).
  assert (E : forall y, In y (clean_row m b x) -> P y = P x).
  { intros y Y. unfold P. assert (K : forall k, In k keys -> getv k y = getv k x) by (intros k I; apply (clean_keeps m b x y k Y); intros ->; contradiction).
    clear -K. induction keys as [|k ks IH]; [reflexivity|]. cbn [forallb]. rewrite (K k (or_introl eq_refl)). f_equal. apply IH. intros k' I. apply K. right. exact I. }
  assert (F : filter P (clean_row m b x) = if P x then clean_row m b x else []).
  { clear -E. induction (clean_row m b x) as [|y l IH]; [now destruct (P x)|]. cbn [filter]. rewrite (E y (or_introl eq_refl)), IH by (intros z Z; apply E; right; exact Z). now destruct (P x). }
  rewrite F. destruct (P x); [cbn [map flat_map]; now rewrite clean_cell|reflexivity].
Qed.
Lemma count_cell keys m r v (T : table) : ~ In m keys ->
  count_occ value_eq_dec (map (getv m) (rows_with_key keys r T)) v = length (rows_with_key (keys ++ [m]) ((m, v) :: r) T).
Proof.
  intros N. unfold rows_with_key. induction T as [|x T IH]; [reflexivity|]. cbn [filter].
  assert (E : forallb (fun c => value_eqb (getv c ((m, v) :: r)) (getv c x)) (keys ++ [m]) = forallb (fun c => value_eqb (getv c r) (getv c x)) keys && value_eqb v (getv m x)).
  { rewrite forallb_app. cbn [forallb]. rewrite andb_true_r. unfold getv at 3. cbn [dget]. rewrite String.eqb_refl. f_equal. clear IH. induction keys as [|k ks IH]; [reflexivity|]. cbn [forallb]. f_equal.
    - unfold getv at 1. cbn [dget]. destruct (String.eqb_spec k m) as [->|D]; [exfalso; apply N; left; reflexivity|reflexivity].
    - apply IH. intros I. apply N. right. exact I. }
  rewrite E. destruct (forallb _ keys); cbn [andb]; [|exact IH]. cbn [map count_occ]. destruct (value_eq_dec (getv m x) v) as [<-|D].
  - assert (value_eqb (getv m x) (getv m x) = true) as -> by now apply value_eqb_eq. cbn [length]. now rewrite IH.
  - assert (value_eqb v (getv m x) = false) as -> by (apply not_true_iff_false; intros Q; apply value_eqb_eq in Q; congruence). exact IH.
Qed.
Lemma spread_values keys m r (a b : table) : ~ In m keys -> spread (keys ++ [m]) 1 1 a b ->
  Permutation (map (getv m) (rows_with_key keys r a)) (map (getv m) (rows_with_key keys r b)).
Proof.
  intros N S. apply (Permutation_count_occ value_eq_dec). intros v. rewrite !count_cell by exact N. specialize (S ((m, v) :: r)). lia.
Qed.
Theorem C85_measures : forall R W K A auto so mu1 mu2 cat data q1 q2 c q s k me a t1 t2,
  exact_core K A -> reads_only A a me -> (forall l, Permutation (so l) l) -> constraints_hold cat data -> catalog_made cat ->
  measure_of q1 = Some (c, me) -> measure_of q2 = Some (q, me) -> aggregation_of q1 = Some a -> aggregation_of q2 = Some a ->
  grouped_by q1 = Some (c, k) -> grouped_by q2 = Some (q, k) ->
  exact_answer R W K auto so mu1 cat data q1 t1 -> exact_answer R W K auto so mu2 cat data q2 t2 ->
  query_l2 mu1 q1 = query_l2 mu2 q2 -> holds_for W cat data (query_l2 mu2 q2) c -> holds_for W cat data (query_l2 mu2 q2) q ->
  keys_as_declared k -> NoDup (keys_columns k ++ output_names q1)%list -> NoDup (keys_columns k ++ output_names q2)%list -> ~ In me (keys_columns k) ->
  schema_of (w_cond_ok W) cat q = Ok s -> derived cat (keys_columns k ++ [me]) s c q 1 1 ->
  (exists T cs, build_transformation W (query_l2 mu2 q2) cat data c = Ok (T, cs)) -> (exists T cs, build_transformation W (query_l2 mu2 q2) cat data q = Ok (T, cs)) ->
  (forall r1 r2, In r1 t1 -> In r2 t2 -> same_cells (keys_columns k) r1 r2 -> map (fun o => getv o r1) (output_names q1) = map (fun o => getv o r2) (output_names q2))
  /\ (forall l, k = KCols l -> forall vs, In vs (cells_in l t1) <-> In vs (cells_in l t2)).
Proof.
  intros R W K A auto so mu1 mu2 cat data q1 q2 c q s k me a t1 t2 EC RO SO HOLD MADE M1 M2 A1 A2 G1 G2 (p1 & b1 & a1 & B1 & L1 & C1 & RUN1) (p2 & b2 & a2 & B2 & L2 & C2 & RUN2) G H1 H2 KD N1 N2 NM S D (T & cs & BT) (T' & cs' & BT').
  pose proof (derived_spread W _ cat data _ s c q 1 1 T cs T' cs' D S BT BT') as SP.
  rewrite <- G in H1, BT.
  destruct (C66_measures_exact R W K A auto so mu1 cat data b1 p1 q1 c me k a T cs a1 t1 EC SO HOLD MADE B1 M1 A1 G1 H1 BT KD N1 L1 C1 RUN1) as (X1 & Y1).
  destruct (C66_measures_exact R W K A auto so mu2 cat data b2 p2 q2 q me k a T' cs' a2 t2 EC SO HOLD MADE B2 M2 A2 G2 H2 BT' KD N2 L2 C2 RUN2) as (X2 & Y2).
  assert (BO : bounds_of q1 = bounds_of q2).
  { clear -A1 A2. destruct q1; try discriminate A1; injection A1 as <-; destruct q2; try discriminate A2; injection A2; intros; subst; reflexivity. }
  rewrite BO in X1, Y1.
  assert (PV : forall r, Permutation (map (getv me) (rows_with_key (keys_columns k) r (flat_map (clean_row me (bounds_of q2)) (v_rows T))))
                                     (map (getv me) (rows_with_key (keys_columns k) r (flat_map (clean_row me (bounds_of q2)) (v_rows T'))))).
  { intros r. rewrite !cleaned_values by exact NM. apply Permutation_flat_map. apply spread_values; assumption. }
  split.
  - intros r1 r2 I1 I2 E. rewrite (X1 r1 I1), (X2 r2 I2), (same_cells_rows _ _ _ _ E). apply RO. apply PV.
  - intros l -> vs. destruct (Y1 l eq_refl) as (_ & Z1), (Y2 l eq_refl) as (_ & Z2). rewrite Z1, Z2. cbn [keys_columns] in PV.
    assert (EQ : forall x y : table, (forall r, length (rows_with_key l r x) = length (rows_with_key l r y)) -> In vs (cells_in l x) -> In vs (cells_in l y)).
    { intros x y L I. unfold cells_in in I. apply in_map_iff in I as (z & <- & I). apply some_row. rewrite <- L. apply some_row. apply in_map_iff. eauto. }
    assert (LEN : forall r, length (rows_with_key l r (flat_map (clean_row me (bounds_of q2)) (v_rows T))) = length (rows_with_key l r (flat_map (clean_row me (bounds_of q2)) (v_rows T')))).
    { intros r. rewrite <- (map_length (getv me)), (Permutation_length (PV r)). apply map_length. }
    split; apply EQ; intros r; rewrite LEN; reflexivity.
Qed.
Print Assumptions C85_measures.

(** Sums of two filters of which each row passes exactly one add up to the sum without them. *)
Theorem C85_filtered_sums : forall R W K A auto so mu0 mu1 mu2 cat data c a b me lo hi k o0 o1 o2 m0 m1 m2 co0 co1 co2 t0 t1 t2 T T1 T2 cs cs1 cs2,
  let q0 := GroupByBounded BSum c k me lo hi o0 m0 co0 in
  let q1 := GroupByBounded BSum (Filter c a) k me lo hi o1 m1 co1 in let q2 := GroupByBounded BSum (Filter c b) k me lo hi o2 m2 co2 in
  exact_core K A -> adds_up A (ABounded BSum me lo hi) -> (forall l, Permutation (so l) l) -> constraints_hold cat data -> catalog_made cat ->
  exact_answer R W K auto so mu0 cat data q0 t0 -> exact_answer R W K auto so mu1 cat data q1 t1 -> exact_answer R W K auto so mu2 cat data q2 t2 ->
  query_l2 mu1 q1 = query_l2 mu0 q0 -> query_l2 mu2 q2 = query_l2 mu0 q0 ->
  holds_for W cat data (query_l2 mu0 q0) c -> build_transformation W (query_l2 mu0 q0) cat data c = Ok (T, cs) ->
  build_transformation W (query_l2 mu0 q0) cat data (Filter c a) = Ok (T1, cs1) -> build_transformation W (query_l2 mu0 q0) cat data (Filter c b) = Ok (T2, cs2) ->
  (forall r, In r (v_rows T) -> w_cond_holds W a r = true <-> w_cond_holds W b r <> true) ->
  keys_as_declared k -> NoDup (keys_columns k ++ [o0])%list -> NoDup (keys_columns k ++ [o1])%list -> NoDup (keys_columns k ++ [o2])%list ->
  forall r0 r1 r2, In r0 t0 -> In r1 t1 -> In r2 t2 -> same_cells (keys_columns k) r0 r1 -> same_cells (keys_columns k) r0 r2 ->
  exists x1 x2, finite_number o1 r1 x1 /\ finite_number o2 r2 x2 /\ finite_number o0 r0 (x1 + x2)%Qc.
Proof.
  intros R W K A auto so mu0 mu1 mu2 cat data c a b me lo hi k o0 o1 o2 m0 m1 m2 co0 co1 co2 t0 t1 t2 T T1 T2 cs cs1 cs2 q0 q1 q2 EC (f & AU) SO HOLD MADE
    (q00 & b0 & a0 & B0 & L0 & C0 & RUN0) (q10 & b1 & a1 & B1 & L1 & C1 & RUN1) (q20 & b2 & a2 & B2 & L2 & C2 & RUN2) G1 G2 H BT BT1 BT2 SPLIT KD N0 N1 N2 r0 r1 r2 I0 I1 I2 E1 E2.
  assert (HF : forall x, holds_for W cat data (query_l2 mu0 q0) (Filter c x)) by (intros x; exact H).
  pose proof (HF a) as H1. rewrite <- G1 in H1. pose proof (HF b) as H2. rewrite <- G2 in H2.
  pose proof BT1 as BT1'. rewrite <- G1 in BT1'. pose proof BT2 as BT2'. rewrite <- G2 in BT2'.
  destruct (C66_measures_exact R W K A auto so mu0 cat data b0 q00 q0 c me k _ T cs a0 t0 EC SO HOLD MADE B0 eq_refl eq_refl eq_refl H BT KD N0 L0 C0 RUN0) as (X0 & _).
  destruct (C66_measures_exact R W K A auto so mu1 cat data b1 q10 q1 (Filter c a) me k _ T1 cs1 a1 t1 EC SO HOLD MADE B1 eq_refl eq_refl eq_refl H1 BT1' KD N1 L1 C1 RUN1) as (X1 & _).
  destruct (C66_measures_exact R W K A auto so mu2 cat data b2 q20 q2 (Filter c b) me k _ T2 cs2 a2 t2 EC SO HOLD MADE B2 eq_refl eq_refl eq_refl H2 BT2' KD N2 L2 C2 RUN2) as (X2 & _).
  specialize (X0 r0 I0). specialize (X1 r1 I1). specialize (X2 r2 I2).
  apply build_transformation_ok in BT as (s & _ & V & _). apply build_transformation_ok in BT1 as (s1 & _ & V1 & _). apply build_transformation_ok in BT2 as (s2 & _ & V2 & _).
  cbn [visit] in V1, V2. rewrite V in V1, V2. cbn [bind visit_filter] in V1, V2. injection V1 as <- _. injection V2 as <- _. cbn [v_rows] in *.
  change (bounds_of q1) with (bounds_of q0) in X1. change (bounds_of q2) with (bounds_of q0) in X2. set (cl := clean_row me (bounds_of q0)) in *.
  rewrite <- (same_cells_rows _ _ _ (flat_map cl (filter (w_cond_holds W a) (v_rows T))) E1) in X1. rewrite <- (same_cells_rows _ _ _ (flat_map cl (filter (w_cond_holds W b) (v_rows T))) E2) in X2.
  destruct (AU (rows_with_key (keys_columns k) r0 (flat_map cl (v_rows T)))) as (v0 & Z0 & Y0).
  destruct (AU (rows_with_key (keys_columns k) r0 (flat_map cl (filter (w_cond_holds W a) (v_rows T))))) as (v1 & Z1 & Y1).
  destruct (AU (rows_with_key (keys_columns k) r0 (flat_map cl (filter (w_cond_holds W b) (v_rows T))))) as (v2 & Z2 & Y2).
  unfold q0 in X0. unfold q1 in X1. unfold q2 in X2. cbn [output_names map] in X0, X1, X2. rewrite Z0 in X0. rewrite Z1 in X1. rewrite Z2 in X2. injection X0 as X0. injection X1 as X1. injection X2 as X2.
  eexists _, _. unfold finite_number. rewrite X0, X1, X2. split; [exact Y1|]. split; [exact Y2|]. rewrite Y0. do 2 f_equal.
  rewrite <- total_app, <- map_app. apply total_perm, Permutation_map. clear -SPLIT. unfold rows_with_key. set (P := fun r => forallb _ _). clearbody P cl.
  rewrite <- filter_app, <- flat_map_app. assert (PE : Permutation (v_rows T) (filter (w_cond_holds W a) (v_rows T) ++ filter (w_cond_holds W b) (v_rows T))%list).
  { rewrite (filter_ext_in (w_cond_holds W b) (fun r => negb (w_cond_holds W a r)) (v_rows T)); [apply RowStability.split_table|].
    intros x I. specialize (SPLIT x I). destruct (w_cond_holds W a x), (w_cond_holds W b x); try reflexivity; exfalso; [apply (proj1 SPLIT eq_refl); reflexivity|].
    assert (false = true) by (apply SPLIT; discriminate). discriminate. }
  assert (PF : forall x y : table, Permutation x y -> Permutation (filter P x) (filter P y)).
  { intros x y Q. induction Q as [|z x y Q IH|z w x|x y z Q1 IH1 Q2 IH2]; [constructor| | |etransitivity; eassumption]; cbn [filter].
    - destruct (P z); [now constructor|exact IH].
    - destruct (P z), (P w); try reflexivity. constructor. }
  apply PF, Permutation_flat_map, PE.
Qed.
Print Assumptions C85_filtered_sums.

(** In a session: in every state it reaches, whatever was called before. *)
Theorem C85_session_counts : forall E K A auto so st p s0 cat data mu1 mu2 c q s k lo hi o1 o2 m1 m2 co1 co2 t1 t2,
  exact_core K A -> (forall l, Permutation (so l) l) -> honest_state true E st -> session st p s0 ->
  catalog_of (s_tree s0) (st_public st) (s_cons s0) = Ok cat -> data_of (s_tree s0) = Ok data ->
  exact_answer (e_round E) (e_world E) K auto so mu1 cat data (GroupByCount c k o1 m1 co1) t1 ->
  exact_answer (e_round E) (e_world E) K auto so mu2 cat data (GroupByCount q k o2 m2 co2) t2 ->
  asks_gaussian mu1 m1 = asks_gaussian mu2 m2 -> metric_fits (asks_gaussian mu2 m2) s0 ->
  (forall x, x = c \/ x = q -> promises (e_world E) (asks_gaussian mu2 m2) cat data x /\ finite_ids (e_world E) (asks_gaussian mu2 m2) cat data x
                            /\ trackable (e_world E) (asks_gaussian mu2 m2) cat data x) ->
  keys_as_declared k -> ~ In o1 (keys_columns k) -> ~ In o2 (keys_columns k) ->
  schema_of (w_cond_ok (e_world E)) cat q = Ok s -> derived cat (keys_columns k) s c q lo hi ->
  (forall r1 r2, In r1 t1 -> In r2 t2 -> same_cells (keys_columns k) r1 r2 ->
     exists n1 n2, whole_number o1 r1 n1 /\ whole_number o2 r2 n2 /\ lo * n1 <= n2 <= hi * n1)
  /\ (forall l, k = KCols l -> forall vs, (In vs (cells_in l t2) -> In vs (cells_in l t1)) /\ (0 < lo -> In vs (cells_in l t1) -> In vs (cells_in l t2))).
Proof.
  intros E K A auto so st p s0 cat data mu1 mu2 c q s k lo hi o1 o2 m1 m2 co1 co2 t1 t2 EC SO H S0 CA DA AN1 AN2 G ME PR KD N1 N2 S D.
  destruct (session_meets E st p s0 cat data _ H S0 CA DA ME) as (HO & MADE & IN).
  refine (C85_counts _ _ K A auto so mu1 mu2 cat data c q s k lo hi o1 o2 m1 m2 co1 co2 t1 t2 EC SO HO MADE AN1 AN2 G _ _ KD N1 N2 S D); split; try exact IN; apply PR; auto.
Qed.
Print Assumptions C85_session_counts.

Theorem C85_session_filters_split : forall E K A auto so st p s0 cat data mu0 mu1 mu2 c a b k o0 o1 o2 m0 m1 m2 co0 co1 co2 t0 t1 t2 T cs,
  exact_core K A -> (forall l, Permutation (so l) l) -> honest_state true E st -> session st p s0 ->
  catalog_of (s_tree s0) (st_public st) (s_cons s0) = Ok cat -> data_of (s_tree s0) = Ok data ->
  exact_answer (e_round E) (e_world E) K auto so mu0 cat data (GroupByCount c k o0 m0 co0) t0 ->
  exact_answer (e_round E) (e_world E) K auto so mu1 cat data (GroupByCount (Filter c a) k o1 m1 co1) t1 ->
  exact_answer (e_round E) (e_world E) K auto so mu2 cat data (GroupByCount (Filter c b) k o2 m2 co2) t2 ->
  asks_gaussian mu1 m1 = asks_gaussian mu0 m0 -> asks_gaussian mu2 m2 = asks_gaussian mu0 m0 -> metric_fits (asks_gaussian mu0 m0) s0 ->
  promises (e_world E) (asks_gaussian mu0 m0) cat data c -> finite_ids (e_world E) (asks_gaussian mu0 m0) cat data c -> trackable (e_world E) (asks_gaussian mu0 m0) cat data c ->
  build_transformation (e_world E) (asks_gaussian mu0 m0) cat data c = Ok (T, cs) ->
  (forall r, In r (v_rows T) -> w_cond_holds (e_world E) a r = true <-> w_cond_holds (e_world E) b r <> true) ->
  keys_as_declared k -> ~ In o0 (keys_columns k) -> ~ In o1 (keys_columns k) -> ~ In o2 (keys_columns k) ->
  forall r0 r1 r2, In r0 t0 -> In r1 t1 -> In r2 t2 -> same_cells (keys_columns k) r0 r1 -> same_cells (keys_columns k) r0 r2 ->
  exists n1 n2, whole_number o1 r1 n1 /\ whole_number o2 r2 n2 /\ whole_number o0 r0 (n1 + n2).
Proof.
  intros E K A auto so st p s0 cat data mu0 mu1 mu2 c a b k o0 o1 o2 m0 m1 m2 co0 co1 co2 t0 t1 t2 T cs EC SO H S0 CA DA AN0 AN1 AN2 G1 G2 ME P FI TR BT SPLIT KD N0 N1 N2.
  destruct (session_meets E st p s0 cat data _ H S0 CA DA ME) as (HO & MADE & IN).
  exact (C85_filters_split _ _ K A auto so mu0 mu1 mu2 cat data c a b k o0 o1 o2 m0 m1 m2 co0 co1 co2 t0 t1 t2 T cs EC SO HO MADE AN0 AN1 AN2 G1 G2 (conj IN (conj P (conj FI TR))) BT SPLIT KD N0 N1 N2).
Qed.
Print Assumptions C85_session_filters_split.

Theorem C85_session_stricter_filter : forall E K A auto so st p s0 cat data mu1 mu2 c a b k o1 o2 m1 m2 co1 co2 t1 t2 T cs,
  exact_core K A -> (forall l, Permutation (so l) l) -> honest_state true E st -> session st p s0 ->
  catalog_of (s_tree s0) (st_public st) (s_cons s0) = Ok cat -> data_of (s_tree s0) = Ok data ->
  exact_answer (e_round E) (e_world E) K auto so mu1 cat data (GroupByCount (Filter c a) k o1 m1 co1) t1 ->
  exact_answer (e_round E) (e_world E) K auto so mu2 cat data (GroupByCount (Filter c b) k o2 m2 co2) t2 ->
  asks_gaussian mu1 m1 = asks_gaussian mu2 m2 -> metric_fits (asks_gaussian mu2 m2) s0 ->
  promises (e_world E) (asks_gaussian mu2 m2) cat data c -> finite_ids (e_world E) (asks_gaussian mu2 m2) cat data c -> trackable (e_world E) (asks_gaussian mu2 m2) cat data c ->
  build_transformation (e_world E) (asks_gaussian mu2 m2) cat data c = Ok (T, cs) ->
  (forall r, In r (v_rows T) -> w_cond_holds (e_world E) a r = true -> w_cond_holds (e_world E) b r = true) ->
  keys_as_declared k -> ~ In o1 (keys_columns k) -> ~ In o2 (keys_columns k) ->
  (forall r1 r2, In r1 t1 -> In r2 t2 -> same_cells (keys_columns k) r1 r2 ->
     exists n1 n2, whole_number o1 r1 n1 /\ whole_number o2 r2 n2 /\ n1 <= n2)
  /\ (forall l, k = KCols l -> forall vs, In vs (cells_in l t1) -> In vs (cells_in l t2)).
Proof.
  intros E K A auto so st p s0 cat data mu1 mu2 c a b k o1 o2 m1 m2 co1 co2 t1 t2 T cs EC SO H S0 CA DA AN1 AN2 G ME P FI TR BT IMP KD N1 N2.
  destruct (session_meets E st p s0 cat data _ H S0 CA DA ME) as (HO & MADE & IN).
  exact (C85_stricter_filter _ _ K A auto so mu1 mu2 cat data c a b k o1 o2 m1 m2 co1 co2 t1 t2 T cs EC SO HO MADE AN1 AN2 G (conj IN (conj P (conj FI TR))) BT IMP KD N1 N2).
Qed.
Print Assumptions C85_session_stricter_filter.

Theorem C85_session_swapped_joins : forall E K A auto so st p s0 cat data mu1 mu2 l r sl sr on k o1 o2 m1 m2 co1 co2 t1 t2,
  let c := JoinPrivate l r sl sr (Some on) in let q := JoinPrivate r l sr sl (Some on) in
  exact_core K A -> (forall l, Permutation (so l) l) -> honest_state true E st -> session st p s0 ->
  catalog_of (s_tree s0) (st_public st) (s_cons s0) = Ok cat -> data_of (s_tree s0) = Ok data ->
  exact_answer (e_round E) (e_world E) K auto so mu1 cat data (GroupByCount c k o1 m1 co1) t1 ->
  exact_answer (e_round E) (e_world E) K auto so mu2 cat data (GroupByCount q k o2 m2 co2) t2 ->
  asks_gaussian mu1 m1 = asks_gaussian mu2 m2 -> metric_fits (asks_gaussian mu2 m2) s0 ->
  (forall x, x = c \/ x = q -> promises (e_world E) (asks_gaussian mu2 m2) cat data x /\ finite_ids (e_world E) (asks_gaussian mu2 m2) cat data x
                            /\ trackable (e_world E) (asks_gaussian mu2 m2) cat data x) ->
  keys_as_declared k -> ~ In o1 (keys_columns k) -> ~ In o2 (keys_columns k) -> incl (keys_columns k) on ->
  (forall r1 r2, In r1 t1 -> In r2 t2 -> same_cells (keys_columns k) r1 r2 -> exists n, whole_number o1 r1 n /\ whole_number o2 r2 n)
  /\ (forall l, k = KCols l -> forall vs, In vs (cells_in l t1) <-> In vs (cells_in l t2)).
Proof.
  intros E K A auto so st p s0 cat data mu1 mu2 l r sl sr on k o1 o2 m1 m2 co1 co2 t1 t2 c q EC SO H S0 CA DA AN1 AN2 G ME PR KD N1 N2 INC.
  destruct (session_meets E st p s0 cat data _ H S0 CA DA ME) as (HO & MADE & IN).
  refine (C85_swapped_joins _ _ K A auto so mu1 mu2 cat data l r sl sr on k o1 o2 m1 m2 co1 co2 t1 t2 EC SO HO MADE AN1 AN2 G _ _ KD N1 N2 INC); split; try exact IN; apply PR; auto.
Qed.
Print Assumptions C85_session_swapped_joins.

Theorem C85_session_distinct_counts : forall E K A auto so st p s0 cat data mu1 mu2 c q s k cols lo hi o1 o2 m1 m2 co1 co2 t1 t2,
  exact_core K A -> (forall l, Permutation (so l) l) -> honest_state true E st -> session st p s0 ->
  catalog_of (s_tree s0) (st_public st) (s_cons s0) = Ok cat -> data_of (s_tree s0) = Ok data ->
  exact_answer (e_round E) (e_world E) K auto so mu1 cat data (GroupByCountDistinct c k cols o1 m1 co1) t1 ->
  exact_answer (e_round E) (e_world E) K auto so mu2 cat data (GroupByCountDistinct q k cols o2 m2 co2) t2 ->
  asks_gaussian mu1 m1 = asks_gaussian mu2 m2 -> metric_fits (asks_gaussian mu2 m2) s0 ->
  (forall x, x = c \/ x = q -> promises (e_world E) (asks_gaussian mu2 m2) cat data x /\ finite_ids (e_world E) (asks_gaussian mu2 m2) cat data x
                            /\ trackable (e_world E) (asks_gaussian mu2 m2) cat data x) ->
  keys_as_declared k -> ~ In o1 (keys_columns k) -> ~ In o2 (keys_columns k) -> cols <> [] ->
  schema_of (w_cond_ok (e_world E)) cat q = Ok s -> derived cat (keys_columns k ++ cols) s c q lo hi ->
  forall r1 r2, In r1 t1 -> In r2 t2 -> same_cells (keys_columns k) r1 r2 ->
  exists n1 n2, whole_number o1 r1 n1 /\ whole_number o2 r2 n2 /\ n2 <= n1 /\ (0 < lo -> n2 = n1).
Proof.
  intros E K A auto so st p s0 cat data mu1 mu2 c q s k cols lo hi o1 o2 m1 m2 co1 co2 t1 t2 EC SO H S0 CA DA AN1 AN2 G ME PR KD N1 N2 NE S D.
  destruct (session_meets E st p s0 cat data _ H S0 CA DA ME) as (HO & MADE & IN).
  refine (C85_distinct_counts _ _ K A auto so mu1 mu2 cat data c q s k cols lo hi o1 o2 m1 m2 co1 co2 t1 t2 EC SO HO MADE AN1 AN2 G _ _ KD N1 N2 NE S D); split; try exact IN; apply PR; auto.
Qed.
Print Assumptions C85_session_distinct_counts.

Theorem C85_session_measures : forall E K A auto so st p s0 cat data mu1 mu2 q1 q2 c q s k me a t1 t2,
  exact_core K A -> reads_only A a me -> (forall l, Permutation (so l) l) -> honest_state true E st -> session st p s0 ->
  catalog_of (s_tree s0) (st_public st) (s_cons s0) = Ok cat -> data_of (s_tree s0) = Ok data ->
  measure_of q1 = Some (c, me) -> measure_of q2 = Some (q, me) -> aggregation_of q1 = Some a -> aggregation_of q2 = Some a ->
  grouped_by q1 = Some (c, k) -> grouped_by q2 = Some (q, k) ->
  exact_answer (e_round E) (e_world E) K auto so mu1 cat data q1 t1 -> exact_answer (e_round E) (e_world E) K auto so mu2 cat data q2 t2 ->
  query_l2 mu1 q1 = query_l2 mu2 q2 -> metric_fits (query_l2 mu2 q2) s0 ->
  (forall x, x = c \/ x = q -> promises (e_world E) (query_l2 mu2 q2) cat data x /\ finite_ids (e_world E) (query_l2 mu2 q2) cat data x
                            /\ trackable (e_world E) (query_l2 mu2 q2) cat data x
                            /\ exists T cs, build_transformation (e_world E) (query_l2 mu2 q2) cat data x = Ok (T, cs)) ->
  keys_as_declared k -> NoDup (keys_columns k ++ output_names q1)%list -> NoDup (keys_columns k ++ output_names q2)%list -> ~ In me (keys_columns k) ->
  schema_of (w_cond_ok (e_world E)) cat q = Ok s -> derived cat (keys_columns k ++ [me]) s c q 1 1 ->
  (forall r1 r2, In r1 t1 -> In r2 t2 -> same_cells (keys_columns k) r1 r2 -> map (fun o => getv o r1) (output_names q1) = map (fun o => getv o r2) (output_names q2))
  /\ (forall l, k = KCols l -> forall vs, In vs (cells_in l t1) <-> In vs (cells_in l t2)).
Proof.
  intros E K A auto so st p s0 cat data mu1 mu2 q1 q2 c q s k me a t1 t2 EC RO SO H S0 CA DA M1 M2 A1 A2 G1 G2 AN1 AN2 G ME PR KD N1 N2 NM S D.
  destruct (session_meets E st p s0 cat data _ H S0 CA DA ME) as (HO & MADE & IN).
  destruct (PR c (or_introl eq_refl)) as (P1 & P2 & P3 & P4), (PR q (or_intror eq_refl)) as (Q1 & Q2 & Q3 & Q4).
  exact (C85_measures _ _ K A auto so mu1 mu2 cat data q1 q2 c q s k me a t1 t2 EC RO SO HO MADE M1 M2 A1 A2 G1 G2 AN1 AN2 G
    (conj IN (conj P1 (conj P2 P3))) (conj IN (conj Q1 (conj Q2 Q3))) KD N1 N2 NM S D P4 Q4).
Qed.
Print Assumptions C85_session_measures.

Theorem C85_session_filtered_sums : forall E K A auto so st p s0 cat data mu0 mu1 mu2 c a b me lo hi k o0 o1 o2 m0 m1 m2 co0 co1 co2 t0 t1 t2 T T1 T2 cs cs1 cs2,
  let q0 := GroupByBounded BSum c k me lo hi o0 m0 co0 in
  let q1 := GroupByBounded BSum (Filter c a) k me lo hi o1 m1 co1 in let q2 := GroupByBounded BSum (Filter c b) k me lo hi o2 m2 co2 in
  exact_core K A -> adds_up A (ABounded BSum me lo hi) -> (forall l, Permutation (so l) l) -> honest_state true E st -> session st p s0 ->
  catalog_of (s_tree s0) (st_public st) (s_cons s0) = Ok cat -> data_of (s_tree s0) = Ok data ->
  exact_answer (e_round E) (e_world E) K auto so mu0 cat data q0 t0 -> exact_answer (e_round E) (e_world E) K auto so mu1 cat data q1 t1 ->
  exact_answer (e_round E) (e_world E) K auto so mu2 cat data q2 t2 ->
  query_l2 mu1 q1 = query_l2 mu0 q0 -> query_l2 mu2 q2 = query_l2 mu0 q0 -> metric_fits (query_l2 mu0 q0) s0 ->
  promises (e_world E) (query_l2 mu0 q0) cat data c -> finite_ids (e_world E) (query_l2 mu0 q0) cat data c -> trackable (e_world E) (query_l2 mu0 q0) cat data c ->
  build_transformation (e_world E) (query_l2 mu0 q0) cat data c = Ok (T, cs) ->
  build_transformation (e_world E) (query_l2 mu0 q0) cat data (Filter c a) = Ok (T1, cs1) -> build_transformation (e_world E) (query_l2 mu0 q0) cat data (Filter c b) = Ok (T2, cs2) ->
  (forall r, In r (v_rows T) -> w_cond_holds (e_world E) a r = true <-> w_cond_holds (e_world E) b r <> true) ->
  keys_as_declared k -> NoDup (keys_columns k ++ [o0])%list -> NoDup (keys_columns k ++ [o1])%list -> NoDup (keys_columns k ++ [o2])%list ->
  forall r0 r1 r2, In r0 t0 -> In r1 t1 -> In r2 t2 -> same_cells (keys_columns k) r0 r1 -> same_cells (keys_columns k) r0 r2 ->
  exists x1 x2, finite_number o1 r1 x1 /\ finite_number o2 r2 x2 /\ finite_number o0 r0 (x1 + x2)%Qc.
Proof.
  intros E K A auto so st p s0 cat data mu0 mu1 mu2 c a b me lo hi k o0 o1 o2 m0 m1 m2 co0 co1 co2 t0 t1 t2 T T1 T2 cs cs1 cs2 q0 q1 q2 EC AU SO H S0 CA DA AN0 AN1 AN2 G1 G2 ME P FI TR BT BT1 BT2 SPLIT KD N0 N1 N2.
  destruct (session_meets E st p s0 cat data _ H S0 CA DA ME) as (HO & MADE & IN).
  exact (C85_filtered_sums _ _ K A auto so mu0 mu1 mu2 cat data c a b me lo hi k o0 o1 o2 m0 m1 m2 co0 co1 co2 t0 t1 t2 T T1 T2 cs cs1 cs2 EC AU SO HO MADE AN0 AN1 AN2 G1 G2 (conj IN (conj P (conj FI TR))) BT BT1 BT2 SPLIT KD N0 N1 N2).
Qed.
Print Assumptions C85_session_filtered_sums.

(** ** Concrete cases *)
(** With IDs: a filter, dropped nulls and a public join, by group. *)
Definition tags_frame : sframe :=
  {| sd_fields := [{| sf_name := "grp"; sf_type := StringT; sf_nullable := false |}; {| sf_name := "x"; sf_type := LongT; sf_nullable := true |}]; sd_rows := sd_rows codes_frame |}.
Definition W2 : world :=
  {| w_cond_ok := fun _ _ => true; w_cond_holds := fun cond r => Bool.eqb (value_eqb (getv "grp" r) (VStr "x")) (String.eqb cond "grp = 'x'");
     w_row_order := rec_order; w_key_order := fun _ => value_order |}.
Definition those (cond : string) : query := Filter (PrivateSource "people") cond.
Definition coded_people : query := JoinPublic (DropInfinity (those "grp = 'x'") ["x"]) (PubFrame tags_frame) (Some ["grp"]) "inner".
Definition per_grp (c : query) : query := GroupByCount c (KCols ["grp"]) "n" MDefault None.
Definition in_total (c : query) : query := GroupByCount c (KSet [] [[]]) "n" MDefault None.
Lemma tags_twice x : length (rows_with_key ["grp"] x (frame_rows tags_frame)) <= 2.
Proof.
  unfold rows_with_key. rewrite (filter_ext _ (fun r => value_eqb (getv "grp" x) (getv "grp" r))) by (intros r; cbn [forallb]; apply andb_true_r).
  generalize (getv "grp" x). intros v. cbn -[value_eqb]. destruct (value_eqb v (VStr "x")) eqn:Q.
  - apply value_eqb_eq in Q. subst v. cbn. lia.
  - destruct (value_eqb v (VStr "z")); cbn; lia.
Qed.
Example C85_case : exists s T cs,
  exact_core K2 A0 /\ constraints_hold pcat pdata /\ catalog_made pcat
  /\ holds_for W2 pcat pdata false (PrivateSource "people") /\ holds_for W2 pcat pdata false coded_people
  /\ exact_answer exact_rounding W2 K2 true idl ApproxDP pcat pdata (per_grp (PrivateSource "people"))
       [[("grp", VNull); ("n", VInt 1)]; [("grp", VStr "x"); ("n", VInt 2)]; [("grp", VStr "y"); ("n", VInt 1)]]
  /\ exact_answer exact_rounding W2 K2 true idl ApproxDP pcat pdata (per_grp coded_people) [[("grp", VStr "x"); ("n", VInt 2)]]
  /\ schema_of (w_cond_ok W2) pcat coded_people = Ok s /\ derived pcat ["grp"] s (PrivateSource "people") coded_people 0 2
  /\ build_transformation W2 false pcat pdata (PrivateSource "people") = Ok (T, cs)
  /\ (forall r, In r (v_rows T) -> w_cond_holds W2 "grp = 'x'" r = true <-> w_cond_holds W2 "grp <> 'x'" r <> true)
  /\ exact_answer exact_rounding W2 K2 true idl PureDP pcat pdata (in_total (PrivateSource "people")) [[("n", VInt 4)]]
  /\ exact_answer exact_rounding W2 K2 true idl PureDP pcat pdata (in_total (those "grp = 'x'")) [[("n", VInt 2)]]
  /\ exact_answer exact_rounding W2 K2 true idl PureDP pcat pdata (in_total (those "grp <> 'x'")) [[("n", VInt 2)]].
Proof.
  eexists _, _, _. split; [exact K2_exact|]. split; [exact pcat_holds|]. split; [exact pcat_made|].
  assert (IN : inputs_ok false pcat pdata) by (apply inputs0_ok; vm_compute; reflexivity).
  split. { split; [exact IN|]. repeat split. }
  split. { split; [exact IN|]. split; [|repeat split]. split; [exact Logic.I|]. split; [apply has_dup_NoDup; reflexivity|].
    intros cols H r [<-|[<-|[<-|[]]]]; injection H as <-; apply row_conformsb_ok; reflexivity. }
  split. { exists (per_grp (PrivateSource "people")), (Approx XPInf (XFin 1)). eexists. split; [reflexivity|]. split; [reflexivity|]. split; vm_compute; reflexivity. }
  split. { exists (per_grp coded_people), (Approx XPInf (XFin 1)). eexists. split; [reflexivity|]. split; [reflexivity|]. split; vm_compute; reflexivity. }
  split; [vm_compute; reflexivity|].
  split. { apply (d_inner_join _ _ _ _ _ _ _ 2 0 1); [|apply incl_refl|intros f x [= <-]; apply tags_twice]. apply (d_drop_inf _ _ _ _ _ _ 0 1), (d_filter _ _ _ _ _ _ 1 1), d_same. }
  split; [vm_compute; reflexivity|].
  split. { intros r _. cbn [W2 w_cond_holds]. destruct (value_eqb (getv "grp" r) (VStr "x")); cbn; split; congruence. }
  split. { exists (in_total (PrivateSource "people")), (Pure XPInf). eexists. split; [reflexivity|]. split; [reflexivity|]. split; vm_compute; reflexivity. }
  split. { exists (in_total (those "grp = 'x'")), (Pure XPInf). eexists. split; [reflexivity|]. split; [reflexivity|]. split; vm_compute; reflexivity. }
  exists (in_total (those "grp <> 'x'")), (Pure XPInf). eexists. split; [reflexivity|]. split; [reflexivity|]. split; vm_compute; reflexivity.
Qed.

(** Sums of filters of which each row passes exactly one. *)
Definition total_x (c : query) : query := GroupByBounded BSum c (KSet [] [[]]) "x" (Query.PInt 0) (Query.PInt 10) "total" MDefault None.
Example C85_filtered_sums_case : exists T T1 T2 cs cs1 cs2,
  exact_core K2 A0 /\ adds_up A0 (ABounded BSum "x" (Query.PInt 0) (Query.PInt 10))
  /\ exact_answer exact_rounding W2 K2 true idl PureDP pcat pdata (total_x (PrivateSource "people")) [[("total", VFloat (z_to_f 13))]]
  /\ exact_answer exact_rounding W2 K2 true idl PureDP pcat pdata (total_x (those "grp = 'x'")) [[("total", VFloat (z_to_f 10))]]
  /\ exact_answer exact_rounding W2 K2 true idl PureDP pcat pdata (total_x (those "grp <> 'x'")) [[("total", VFloat (z_to_f 3))]]
  /\ query_l2 PureDP (total_x (PrivateSource "people")) = false
  /\ build_transformation W2 false pcat pdata (PrivateSource "people") = Ok (T, cs)
  /\ build_transformation W2 false pcat pdata (those "grp = 'x'") = Ok (T1, cs1) /\ build_transformation W2 false pcat pdata (those "grp <> 'x'") = Ok (T2, cs2)
  /\ (forall r, In r (v_rows T) -> w_cond_holds W2 "grp = 'x'" r = true <-> w_cond_holds W2 "grp <> 'x'" r <> true).
Proof.
  eexists _, _, _, _, _, _. split; [exact K2_exact|]. split. { destruct C83_case as (T & cs & _ & _ & _ & _ & _ & _ & _ & _ & _ & _ & _ & AU & _). exact AU. }
  split. { exists (total_x (PrivateSource "people")), (Pure XPInf). eexists. split; [reflexivity|]. split; [reflexivity|]. split; vm_compute; reflexivity. }
  split. { exists (total_x (those "grp = 'x'")), (Pure XPInf). eexists. split; [reflexivity|]. split; [reflexivity|]. split; vm_compute; reflexivity. }
  split. { exists (total_x (those "grp <> 'x'")), (Pure XPInf). eexists. split; [reflexivity|]. split; [reflexivity|]. split; vm_compute; reflexivity. }
  split; [reflexivity|]. split; [vm_compute; reflexivity|]. split; [vm_compute; reflexivity|]. split; [vm_compute; reflexivity|].
  intros r _. cbn [W2 w_cond_holds]. destruct (value_eqb (getv "grp" r) (VStr "x")); cbn; split; congruence.
Qed.

(** Filters of which one implies the other. *)
Definition W3 : world :=
  {| w_cond_ok := fun _ _ => true; w_cond_holds := fun cond r => if String.eqb cond "grp = 'x'" then value_eqb (getv "grp" r) (VStr "x") else negb (is_null (getv "grp" r));
     w_row_order := rec_order; w_key_order := fun _ => value_order |}.
Example C85_stricter_case : exists T cs,
  holds_for W3 pcat pdata false (PrivateSource "people")
  /\ build_transformation W3 false pcat pdata (PrivateSource "people") = Ok (T, cs)
  /\ (forall r, In r (v_rows T) -> w_cond_holds W3 "grp = 'x'" r = true -> w_cond_holds W3 "grp is not null" r = true)
  /\ exact_answer exact_rounding W3 K2 true idl ApproxDP pcat pdata (per_grp (those "grp = 'x'")) [[("grp", VStr "x"); ("n", VInt 2)]]
  /\ exact_answer exact_rounding W3 K2 true idl ApproxDP pcat pdata (per_grp (those "grp is not null")) [[("grp", VStr "x"); ("n", VInt 2)]; [("grp", VStr "y"); ("n", VInt 1)]]
  /\ exact_answer exact_rounding W3 K2 true idl PureDP pcat pdata (in_total (those "grp = 'x'")) [[("n", VInt 2)]]
  /\ exact_answer exact_rounding W3 K2 true idl PureDP pcat pdata (in_total (those "grp is not null")) [[("n", VInt 3)]].
Proof.
  eexists _, _. split. { split; [apply inputs0_ok; vm_compute; reflexivity|]. repeat split. }
  split; [vm_compute; reflexivity|].
  split. { intros r _ H. cbn in *. apply value_eqb_eq in H. rewrite H. reflexivity. }
  split. { exists (per_grp (those "grp = 'x'")), (Approx XPInf (XFin 1)). eexists. split; [reflexivity|]. split; [reflexivity|]. split; vm_compute; reflexivity. }
  split. { exists (per_grp (those "grp is not null")), (Approx XPInf (XFin 1)). eexists. split; [reflexivity|]. split; [reflexivity|]. split; vm_compute; reflexivity. }
  split. { exists (in_total (those "grp = 'x'")), (Pure XPInf). eexists. split; [reflexivity|]. split; [reflexivity|]. split; vm_compute; reflexivity. }
  exists (in_total (those "grp is not null")), (Pure XPInf). eexists. split; [reflexivity|]. split; [reflexivity|]. split; vm_compute; reflexivity.
Qed.

(** Without IDs: a left join keeps every row, and max_rows limits a flat map. *)
Definition parcels : schema := sch0 [("grp", dsc VARCHAR true false false); ("n", dsc INTEGER false false false)] None.
Definition parcels_src := [("parcels", parcels, @nil constraint, [[("grp", VStr "x"); ("n", VInt 1)]; [("grp", VStr "q"); ("n", VInt 2)]])].
Definition thrice : rec -> list rec := fun r => [[("i", VInt 1)]; [("i", VInt 2)]; [("i", VInt 3)]].
Definition coded_parcels : query := JoinPublic (PrivateSource "parcels") (PubFrame tags_frame) (Some ["grp"]) "left".
Definition many_parcels : query := FlatMap coded_parcels thrice (sch0 [("i", dsc INTEGER true false false)] None) true (Some 2%Z).
Definition grps (c : query) : query := GroupByCountDistinct c (KSet [] [[]]) ["grp"] "n" MDefault None.
Example C85_case_without_ids : let pc := cat0 parcels_src [] in let pd := data0 parcels_src in exists s s',
  constraints_hold pc pd /\ catalog_made pc
  /\ holds_for W2 pc pd false (PrivateSource "parcels") /\ holds_for W2 pc pd false coded_parcels /\ holds_for W2 pc pd false many_parcels
  /\ schema_of (w_cond_ok W2) pc coded_parcels = Ok s /\ derived pc ["grp"] s (PrivateSource "parcels") coded_parcels 1 2
  /\ schema_of (w_cond_ok W2) pc many_parcels = Ok s' /\ derived pc ["grp"] s' (PrivateSource "parcels") many_parcels 0 4
  /\ exact_answer exact_rounding W2 K2 true idl ApproxDP pc pd (per_grp (PrivateSource "parcels")) [[("grp", VStr "x"); ("n", VInt 1)]; [("grp", VStr "q"); ("n", VInt 1)]]
  /\ exact_answer exact_rounding W2 K2 true idl ApproxDP pc pd (per_grp coded_parcels) [[("grp", VStr "x"); ("n", VInt 2)]; [("grp", VStr "q"); ("n", VInt 1)]]
  /\ exact_answer exact_rounding W2 K2 true idl ApproxDP pc pd (per_grp many_parcels) [[("grp", VStr "x"); ("n", VInt 4)]; [("grp", VStr "q"); ("n", VInt 2)]]
  /\ exact_answer exact_rounding W2 K2 true idl PureDP pc pd (grps (PrivateSource "parcels")) [[("n", VInt 2)]]
  /\ exact_answer exact_rounding W2 K2 true idl PureDP pc pd (grps coded_parcels) [[("n", VInt 2)]].
Proof.
  cbv zeta. eexists _, _. split; [apply constraints0; vm_compute; reflexivity|].
  split. { intros n s cs H. unfold parcels_src, cat0 in H. cbn [cat_private map dget fst snd] in H. destruct (String.eqb n "parcels"); [|discriminate H]. injection H as <- <-. reflexivity. }
  assert (IN : inputs_ok false (cat0 parcels_src []) (data0 parcels_src)) by (apply inputs0_ok; vm_compute; reflexivity).
  assert (P : promises W2 false (cat0 parcels_src []) (data0 parcels_src) coded_parcels).
  { split; [exact Logic.I|]. split; [apply has_dup_NoDup; reflexivity|]. intros cols H r [<-|[<-|[<-|[]]]]; injection H as <-; apply row_conformsb_ok; reflexivity. }
  split. { split; [exact IN|]. repeat split. }
  split. { split; [exact IN|]. split; [exact P|]. repeat split. }
  split. { split; [exact IN|]. split; [|repeat split]. split; [exact P|]. split; [apply has_dup_NoDup; reflexivity|].
    intros t cs r o _ _ [<-|[<-|[<-|[]]]] c d D; cbn in D; (destruct (String.eqb c "i") eqn:Ec; [|discriminate]); apply String.eqb_eq in Ec; subst c; injection D as <-; reflexivity. }
  split; [vm_compute; reflexivity|].
  assert (L : forall s, sc_id s = None -> derived (cat0 parcels_src []) ["grp"] s (PrivateSource "parcels") coded_parcels 1 2).
  { intros s N. apply (d_left_join _ _ _ _ _ _ _ 2 1 1); [apply d_same|apply incl_refl|exact N|intros f x [= <-]; apply tags_twice]. }
  split; [apply L; reflexivity|]. split; [vm_compute; reflexivity|].
  split. { apply (d_flat_map _ _ _ _ _ _ _ 2 1 2); [apply L; reflexivity|apply has_dup_NoDup; reflexivity|intros k [<-|[]] [E|[]]; discriminate|reflexivity]. }
  split. { exists (per_grp (PrivateSource "parcels")), (Approx XPInf (XFin 1)). eexists. split; [reflexivity|]. split; [reflexivity|]. split; vm_compute; reflexivity. }
  split. { exists (per_grp coded_parcels), (Approx XPInf (XFin 1)). eexists. split; [reflexivity|]. split; [reflexivity|]. split; vm_compute; reflexivity. }
  split. { exists (per_grp many_parcels), (Approx XPInf (XFin 1)). eexists. split; [reflexivity|]. split; [reflexivity|]. split; vm_compute; reflexivity. }
  split. { exists (grps (PrivateSource "parcels")), (Pure XPInf). eexists. split; [reflexivity|]. split; [reflexivity|]. split; vm_compute; reflexivity. }
  exists (grps coded_parcels), (Pure XPInf). eexists. split; [reflexivity|]. split; [reflexivity|]. split; vm_compute; reflexivity.
Qed.

(** A join of tables without IDs: each row finds at most as many partners as the truncation of the other side keeps. *)
Definition paired : query := JoinPrivate (PrivateSource "parcels") coded_parcels (Some (DropExcess 3)) (Some (DropExcess 2)) (Some ["grp"]).
Definition swapped : query := JoinPrivate coded_parcels (PrivateSource "parcels") (Some (DropExcess 2)) (Some (DropExcess 3)) (Some ["grp"]).
Definition paired' : query := JoinPrivate coded_parcels (PrivateSource "parcels") (Some (DropExcess 2)) (Some DropNonUnique) (Some ["grp"]).
Example C85_case_private_join : let pc := cat0 parcels_src [] in let pd := data0 parcels_src in exists s s',
  holds_for W2 pc pd false paired /\ holds_for W2 pc pd false paired'
  /\ schema_of (w_cond_ok W2) pc paired = Ok s /\ derived pc ["grp"] s (PrivateSource "parcels") paired 0 2
  /\ schema_of (w_cond_ok W2) pc paired' = Ok s' /\ derived pc ["grp"] s' (PrivateSource "parcels") paired' 0 2
  /\ exact_answer exact_rounding W2 K2 true idl ApproxDP pc pd (per_grp paired) [[("grp", VStr "q"); ("n", VInt 1)]; [("grp", VStr "x"); ("n", VInt 2)]]
  /\ exact_answer exact_rounding W2 K2 true idl ApproxDP pc pd (per_grp paired') [[("grp", VStr "q"); ("n", VInt 1)]; [("grp", VStr "x"); ("n", VInt 2)]].
Proof.
  cbv zeta. eexists _, _.
  assert (IN : inputs_ok false (cat0 parcels_src []) (data0 parcels_src)) by (apply inputs0_ok; vm_compute; reflexivity).
  assert (P : promises W2 false (cat0 parcels_src []) (data0 parcels_src) coded_parcels).
  { split; [exact Logic.I|]. split; [apply has_dup_NoDup; reflexivity|]. intros cols H r [<-|[<-|[<-|[]]]]; injection H as <-; apply row_conformsb_ok; reflexivity. }
  split. { split; [exact IN|]. split; [split; [exact Logic.I|exact P]|]. split; [repeat split|]. split; [repeat split|]. split; [repeat split|]. intros tl lcs tr rcs VL VR. vm_compute in VL, VR. injection VL as <- <-. injection VR as <- <-. split; intros g m []. }
  split. { split; [exact IN|]. split; [split; [exact P|exact Logic.I]|]. split; [repeat split|]. split; [repeat split|]. split; [repeat split|]. intros tl lcs tr rcs VL VR. vm_compute in VL, VR. injection VL as <- <-. injection VR as <- <-. split; intros g m []. }
  split; [vm_compute; reflexivity|]. split; [apply (d_join_private _ _ _ _ _ _ _ (DropExcess 2) _ 1 1); [apply d_same|apply incl_refl|reflexivity]|].
  split; [vm_compute; reflexivity|]. split; [apply (d_join_private_right _ _ _ _ _ _ (DropExcess 2) _ _ 1 1); [apply d_same|apply incl_refl|reflexivity]|].
  split. { exists (per_grp paired), (Approx XPInf (XFin 1)). eexists. split; [reflexivity|]. split; [reflexivity|]. split; vm_compute; reflexivity. }
  exists (per_grp paired'), (Approx XPInf (XFin 1)). eexists. split; [reflexivity|]. split; [reflexivity|]. split; vm_compute; reflexivity.
Qed.

(** The same join with its sides swapped. *)
Example C85_case_swapped : let pc := cat0 parcels_src [] in let pd := data0 parcels_src in
  holds_for W2 pc pd false paired /\ holds_for W2 pc pd false swapped
  /\ exact_answer exact_rounding W2 K2 true idl ApproxDP pc pd (per_grp paired) [[("grp", VStr "q"); ("n", VInt 1)]; [("grp", VStr "x"); ("n", VInt 2)]]
  /\ exact_answer exact_rounding W2 K2 true idl ApproxDP pc pd (per_grp swapped) [[("grp", VStr "q"); ("n", VInt 1)]; [("grp", VStr "x"); ("n", VInt 2)]].
Proof.
  cbv zeta. destruct C85_case_private_join as (s & s' & (IN & P & _) & (_ & P' & _) & _). destruct C85_case_private_join as (_ & _ & H & _ & _ & _ & _ & _ & A1 & _).
  split; [exact H|]. split. { split; [exact IN|]. split; [exact P'|]. split; [repeat split|]. split; [repeat split|]. split; [repeat split|]. intros tl lcs tr rcs VL VR. vm_compute in VL, VR. injection VL as <- <-. injection VR as <- <-. split; intros g m []. }
  split; [exact A1|]. exists (per_grp swapped), (Approx XPInf (XFin 1)). eexists. split; [reflexivity|]. split; [reflexivity|]. split; vm_compute; reflexivity.
Qed.

(** Sums: an added column changes nothing. *)
Definition with_y : query := MapQ (PrivateSource "people") (fun _ => [("y", VInt 1)]) (sch0 [("y", dsc INTEGER true false false)] None) true.
Definition sums (c : query) (o : string) : query := GroupByBounded BSum c (KCols ["grp"]) "x" (Query.PInt 0) (Query.PInt 10) o MDefault None.
Lemma A0_reads kd lo hi : reads_only A0 (ABounded kd "x" lo hi) "x".
Proof.
  intros rows rows' P. cbn [A0]. do 3 f_equal. unfold total_of. rewrite <- !(map_map (getv "x") finite_part). apply total_perm, Permutation_map, P.
Qed.
Example C85_sums_case : exists s T T' cs cs' t,
  reads_only A0 (ABounded BSum "x" (Query.PInt 0) (Query.PInt 10)) "x"
  /\ holds_for W2 pcat pdata false (PrivateSource "people") /\ holds_for W2 pcat pdata false with_y
  /\ exact_answer exact_rounding W2 K2 true idl ApproxDP pcat pdata (sums (PrivateSource "people") "a") t
  /\ exact_answer exact_rounding W2 K2 true idl ApproxDP pcat pdata (sums with_y "b") (map (fun r => map (fun p => (if String.eqb (fst p) "a" then "b" else fst p, snd p)) r) t)
  /\ schema_of (w_cond_ok W2) pcat with_y = Ok s /\ derived pcat ["grp"; "x"] s (PrivateSource "people") with_y 1 1
  /\ build_transformation W2 false pcat pdata (PrivateSource "people") = Ok (T, cs) /\ build_transformation W2 false pcat pdata with_y = Ok (T', cs')
  /\ length t = 2.
Proof.
  eexists _, _, _, _, _, _. split; [apply A0_reads|]. assert (IN : inputs_ok false pcat pdata) by (apply inputs0_ok; vm_compute; reflexivity).
  split. { split; [exact IN|]. repeat split. }
  split. { split; [exact IN|]. split; [|repeat split]. split; [exact Logic.I|]. split; [apply has_dup_NoDup; reflexivity|].
    intros t cs r _ _ c d D. cbn in D. destruct (String.eqb c "y") eqn:Ec; [|discriminate]. apply String.eqb_eq in Ec. subst c. injection D as <-. reflexivity. }
  split. { exists (sums (PrivateSource "people") "a"), (Approx XPInf (XFin 1)). eexists. split; [reflexivity|]. split; [reflexivity|]. split; vm_compute; reflexivity. }
  split. { exists (sums with_y "b"), (Approx XPInf (XFin 1)). eexists. split; [reflexivity|]. split; [reflexivity|]. split; vm_compute; reflexivity. }
  split; [vm_compute; reflexivity|].
  split. { apply d_map; [apply d_same|apply has_dup_NoDup; reflexivity|intros k [<-|[<-|[]]] [E|[]]; discriminate]. }
  split; [vm_compute; reflexivity|]. split; [vm_compute; reflexivity|]. reflexivity.
Qed.

(** The same in a session that has made views and a partition: columns of the view "few".*)
Definition atmost2 : query := EnforceConstraint (PrivateSource "few") (MaxRowsPerID 2).
Example C85_session_case : exists s0 cat data s n n',
  let st := run E0 trips_state trips_plan in let q := Select atmost2 ["id"; "city"] in
  honest_state true E0 st /\ session st [] s0
  /\ catalog_of (s_tree s0) (st_public st) (s_cons s0) = Ok cat /\ data_of (s_tree s0) = Ok data
  /\ exact_answer (e_round E0) (e_world E0) K2 true idl RhoZCDP cat data (in_total atmost2) [[("n", VInt (Z.of_nat n))]]
  /\ exact_answer (e_round E0) (e_world E0) K2 true idl RhoZCDP cat data (in_total q) [[("n", VInt (Z.of_nat n'))]]
  /\ metric_fits (asks_gaussian RhoZCDP MDefault) s0
  /\ (forall x, x = atmost2 \/ x = q -> promises (e_world E0) true cat data x /\ finite_ids (e_world E0) true cat data x /\ trackable (e_world E0) true cat data x)
  /\ schema_of (w_cond_ok (e_world E0)) cat q = Ok s /\ derived cat [] s atmost2 q 1 1 /\ 0 < n.
Proof.
  eexists _, _, _, _, 4, 4. cbv zeta. split; [exact trips_honest|]. split; [eexists; split; [vm_compute; reflexivity|reflexivity]|].
  split; [vm_compute; reflexivity|]. split; [vm_compute; reflexivity|].
  split. { exists (in_total atmost2), (Zcdp XPInf). eexists. split; [reflexivity|]. split; [reflexivity|]. split; [vm_compute; reflexivity|]. vm_compute. reflexivity. }
  split. { exists (in_total (Select atmost2 ["id"; "city"])), (Zcdp XPInf). eexists. split; [reflexivity|]. split; [reflexivity|]. split; [vm_compute; reflexivity|]. vm_compute. reflexivity. }
  split; [left; vm_compute; reflexivity|]. split. { intros x [->| ->]; repeat split. }
  split; [vm_compute; reflexivity|]. split; [apply d_select; [apply d_same|intros x []]|]. lia.
Qed.
