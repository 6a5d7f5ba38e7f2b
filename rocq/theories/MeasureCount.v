(** What counts and distinct counts add noise to. *)
From Coq Require Import String Bool Arith ZArith QArith Qcanon Lia Permutation List.
From Verif Require Import Prelude Budget Value Rows Constraints ConstraintsSpec ConstraintsProofs ConstraintsStab
  Schema SchemaProofs Query Rewrite RewriteSpec RewriteProofs Transform TransformSpec TransformVisit TransformConform TransformAgree
  QueryProofs PropagateProofs Session Measure MeasureProofs.
Import ListNotations.
Local Open Scope string_scope.
Local Open Scope nat_scope.

(** ** Specification *)

(** Whether the noise is Gaussian: if asked for, or by default under zCDP. *)
Definition asks_gaussian (mu : measure) (m : mech) : bool :=
  match m, mu with MGaussian, _ | MDefault, RhoZCDP => true | _, _ => false end.
(** The number of different values that columns [cols] take in the rows of [t] with a key:
    every row is read off as the list of its cells in these columns. *)
Definition rows_with_key (key_cols : list string) (key : rec) (t : table) : table :=
  filter (fun r => forallb (fun c => value_eqb (getv c key) (getv c r)) key_cols) t.
Definition distinct_count (cols : list string) (t : table) : nat :=
  length (nodup (list_eq_dec value_eq_dec) (map (fun r => map (fun c => getv c r) cols) t)).

(** ** Distinct *)
Lemma nodup_map_count {A B C} (eb : forall x y : B, {x = y} + {x <> y}) (ec : forall x y : C, {x = y} + {x <> y})
    (f : A -> B) (g : A -> C) l :
  (forall x y, In x l -> In y l -> f x = f y <-> g x = g y) ->
  length (nodup eb (map f l)) = length (nodup ec (map g l)).
Proof.
  induction l as [|a l IH]; intros H; [reflexivity|]. cbn [map nodup].
  assert (E : length (nodup eb (map f l)) = length (nodup ec (map g l))) by (apply IH; intros x y X Y; apply H; right; assumption).
  destruct (in_dec eb (f a) (map f l)) as [I|N], (in_dec ec (g a) (map g l)) as [J|M]; cbn [length]; auto.
  - exfalso. apply M. apply in_map_iff in I as (x & X & I). apply in_map_iff. exists x. split; [|exact I].
    apply H; [right; exact I|left; reflexivity|exact X].
  - exfalso. apply N. apply in_map_iff in J as (x & X & J). apply in_map_iff. exists x. split; [|exact J].
    apply H; [right; exact J|left; reflexivity|exact X].
Qed.
Lemma nodup_perm {A} (ea : forall x y : A, {x = y} + {x <> y}) l l' : Permutation l l' -> length (nodup ea l) = length (nodup ea l').
Proof.
  intros P. apply Permutation_length. apply NoDup_Permutation; try apply NoDup_nodup.
  intros x. rewrite !nodup_In. split; apply Permutation_in; [exact P|apply Permutation_sym, P].
Qed.
Lemma cells_eq cols a b : map (fun c => getv c a) cols = map (fun c => getv c b) cols <-> forall c, In c cols -> getv c a = getv c b.
Proof.
  induction cols as [|x cols IH]; cbn [map]; [firstorder|]. split.
  - intros [= E1 E2] c [<-|I]; [exact E1|]. apply IH; assumption.
  - intros H. f_equal; [apply H; left; reflexivity|]. apply IH. intros c I. apply H. right. exact I.
Qed.
Lemma distinct_count_same cols cols' t t' : same_table t t' -> (forall c, In c cols <-> In c cols') ->
  distinct_count cols t = distinct_count cols' t'.
Proof.
  intros P H. unfold distinct_count. rewrite (nodup_map_count _ (list_eq_dec value_eq_dec) _ (fun r => map (fun c => getv c r) cols')).
  - apply nodup_perm, Permutation_map, P.
  - intros a b _ _. rewrite !cells_eq. firstorder.
Qed.
Lemma rows_with_key_same cols key t t' : same_table t t' -> same_table (rows_with_key cols key t) (rows_with_key cols key t').
Proof. apply Permutation_filter. Qed.
Lemma group_eq cols key t : group cols key t = rows_with_key cols key t.
Proof. reflexivity. Qed.

Section Count.
Variable R : rounding.
Variable W : world.
Variable K : core.
Variable auto : bool.
Variable so : list string -> list string.
Hypothesis SO : forall l, Permutation (so l) l.
Variable mu : measure.
Variable cat : catalog.
Variable data : dict vtab.
Notation sch := (schema_of (w_cond_ok W) cat).
Notation mq := (measure_query R W K auto so mu cat data).

(** ** Truncation of a table that satisfies its constraints *)
Definition good (t : vtab) (cs : list constraint) : Prop := forall i, v_place t = PKeys i -> satisfies_all i cs (v_rows t).
Lemma truncated_same gr t cs t' : good t cs -> truncated W so mu gr (t, cs) = Ok t' ->
  same_table (v_rows t') (v_rows t) /\ v_dom t' = v_dom t.
Proof.
  unfold truncated. cbn [fst snd]. intros G H. apply bind_ok in H as (y & Y & H). injection H as <-. cbn [v_rows v_dom]. split; [|reflexivity].
  destruct (v_place t) as [i| | |] eqn:P; try (cbn in Y; injection Y as <-; apply Permutation_refl).
  apply truncate_ids in Y as (tr & C & -> & _). apply fold_enforce_id. intros c I. apply (G i P).
  unfold choose_trunc in C. pose proof (isort_perm (trunc_le mu gr) (truncatable so cs)) as PM.
  destruct (isort _ _) as [|x l]; [discriminate|]. injection C as ->.
  apply (truncatable_usable so SO cs tr); [|exact I]. eapply Permutation_in; [exact PM|left; reflexivity].
Qed.
Lemma enforce_child q k l2 t cs t' cs' : build_transformation W l2 cat data q = Ok (t, cs) ->
  build_transformation W l2 cat data (EnforceConstraint q k) = Ok (t', cs') ->
  exists i, v_place t = PKeys i /\ v_place t' = PKeys i /\ v_dom t' = v_dom t
    /\ v_rows t' = enforce_rows (w_row_order W) (w_key_order W) i k (v_rows t) /\ cs' = simplify (cs ++ [k])%list.
Proof.
  intros B B'. apply build_transformation_ok in B as (s & _ & V & _). apply build_transformation_ok in B' as (s' & _ & V' & _).
  cbn [visit] in V'. rewrite V in V'. cbn [bind] in V'. unfold visit_enforce in V'. apply bind_ok in V' as (y & Y & E). injection E as <- <-.
  cbn [v_place v_dom v_rows]. destruct k as [m|g m|g m]; cbn [enforce t_place t_rows] in Y; destruct (v_place t) as [i| | |]; try discriminate;
    injection Y as <-; exists i; auto.
Qed.
Lemma enforce_good t cs i k t' : good t cs -> v_place t = PKeys i -> v_place t' = PKeys i ->
  v_rows t' = enforce_rows (w_row_order W) (w_key_order W) i k (v_rows t) -> good t' (simplify (cs ++ [k])%list).
Proof.
  intros G P P' E j Pj. rewrite P' in Pj. injection Pj as <-. rewrite E. apply simplify_sat. intros c I. apply in_app_iff in I as [I|[<-|[]]].
  - eapply satisfies_sub; [apply enforce_rows_sub|]. apply (G i P c I).
  - apply enforce_rows_sat.
Qed.

(** ** Counts *)
Lemma visit_count_ok b c k o m co r adj : visit_count R W K so mu cat data b c k o m co = Ok (r, adj) ->
  exists cm t cs g, co = Some cm /\ build_transformation W (gaussian cm) cat data c = Ok (t, cs)
    /\ plan_of r = Some (adj, g) /\ g_keys g = k /\ g_outs g = [o]
    /\ (good t cs -> forall key, counted g key = length (rows_with_key (keys_columns k) key (v_rows t))).
Proof.
  unfold visit_count. intros H. apply bind_ok in H as (bs & _ & H). apply bind_ok in H as (cm & CM & H).
  apply bind_ok in H as ((t & cs) & T & H). apply bind_ok in H as (t' & TR & H). apply finish_inv in H as (kb & qb & _ & -> & _).
  exists cm, t, cs. eexists. split; [destruct co; [injection CM as ->; reflexivity|discriminate]|]. split; [exact T|].
  cbn [plan_of]. split; [reflexivity|]. split; [reflexivity|]. split; [reflexivity|]. intros G key. unfold counted. cbn [g_agg g_keys g_table].
  rewrite group_eq. apply Permutation_length, rows_with_key_same. apply (truncated_same _ _ _ _ G TR).
Qed.

Lemma matches_one g key r : matches [g] key r = has_value g (getv g key) r.
Proof.
  unfold matches, has_value. cbn [forallb]. rewrite andb_true_r. unfold value_eqb.
  destruct (value_eq_dec (getv g key) (getv g r)), (value_eq_dec (getv g r) (getv g key)); congruence.
Qed.
Lemma counts_only_spec cols s i : counts_only cols s i = true ->
  let l := match cols with [] => dkeys (sc_cols s) | _ => cols end in In i l /\ forall c, In c l -> c = i.
Proof.
  unfold counts_only. intros H. apply andb_prop in H as (A & B). split; [apply smem_In, A|].
  intros c I. rewrite forallb_forall in B. apply B, String.eqb_eq in I. auto.
Qed.
Lemma distinct_one i cols t : In i cols -> (forall c, In c cols -> c = i) -> distinct_count cols t = length (distinct_values i t).
Proof.
  intros I A. unfold distinct_count, distinct_values. apply nodup_map_count. intros a b _ _. rewrite cells_eq. split; [auto|].
  intros E c C. rewrite (A c C). exact E.
Qed.
Lemma mapM_lookup (d : dict coredesc) cols l : mapM (fun c => match dget c d with Some k => Ok (c, k) | None => Err ValueError end) cols = Ok l ->
  dkeys l = cols.
Proof.
  revert l. induction cols as [|c cols IH]; intros l H; cbn [mapM] in H; [injection H as <-; reflexivity|].
  apply bind_ok in H as (x & X & H). apply bind_ok in H as (l' & L & H). injection H as <-. destruct (dget c d); [|discriminate]. injection X as <-.
  unfold dkeys. cbn [map fst]. f_equal. apply IH, L.
Qed.
Lemma select_cols cols t cs t' cs' : visit_select cols (t, cs) = Ok (t', cs') ->
  v_rows t' = map (select_row cols) (v_rows t) /\ forall c, In c (dkeys (v_dom t')) <-> In c cols.
Proof.
  unfold visit_select. intros H. apply bind_ok in H as (d & D & H). apply bind_ok in H as (u & _ & H). injection H as <- <-. cbn [v_rows v_dom].
  split; [reflexivity|]. apply mapM_lookup in D. intros c. rewrite TransformIds.dict_of_keys, D. reflexivity.
Qed.
Lemma filter_map {A B} (p : B -> bool) (f : A -> B) l : filter p (map f l) = map f (filter (fun x => p (f x)) l).
Proof. induction l as [|a l IH]; [reflexivity|]. cbn [map filter]. destruct (p (f a)); cbn [map]; rewrite IH; reflexivity. Qed.
Lemma rows_with_key_select kc cols key t : incl kc cols ->
  rows_with_key kc key (map (select_row cols) t) = map (select_row cols) (rows_with_key kc key t).
Proof.
  intros I. unfold rows_with_key. rewrite filter_map. f_equal. apply filter_ext. intros r.
  induction kc as [|c kc IH]; [reflexivity|]. cbn [forallb]. rewrite getv_select by (apply I; left; reflexivity).
  rewrite IH by (intros x X; apply I; right; exact X). reflexivity.
Qed.
Lemma rows_with_key_const kc key t a b c : In a (rows_with_key kc key t) -> In b (rows_with_key kc key t) -> In c kc -> getv c a = getv c b.
Proof.
  unfold rows_with_key. rewrite !filter_In, !forallb_forall. intros (_ & A) (_ & B) I. specialize (A c I). specialize (B c I).
  unfold value_eqb in *. destruct (value_eq_dec (getv c key) (getv c a)), (value_eq_dec (getv c key) (getv c b)); congruence.
Qed.
Lemma distinct_select kc cols cols' key t : (forall c, In c cols' <-> In c (nodup string_dec (cols ++ kc)%list)) ->
  distinct_count cols' (rows_with_key kc key (map (select_row (nodup string_dec (cols ++ kc)%list)) t))
  = distinct_count cols (rows_with_key kc key t).
Proof.
  intros H. rewrite rows_with_key_select by (intros x X; apply nodup_In, in_app_iff; auto).
  unfold distinct_count. rewrite map_map. apply nodup_map_count. intros a b A B. rewrite !cells_eq. split; intros E c C.
  - assert (I : In c (nodup string_dec (cols ++ kc)%list)) by (apply nodup_In, in_app_iff; auto).
    specialize (E c (proj2 (H c) I)). rewrite !getv_select in E by exact I. exact E.
  - apply H in C. rewrite !getv_select by exact C. apply nodup_In, in_app_iff in C as [C|C]; [apply E, C|].
    exact (rows_with_key_const _ _ _ _ _ _ A B C).
Qed.

Definition counted_cols (cols : list string) (s : schema) : list string := match cols with [] => dkeys (sc_cols s) | _ => cols end.
Lemma visit_count_distinct_ok b c k cols o m co r adj :
  visit_count_distinct R W K auto so mu cat data b c k cols o m co = Ok (r, adj) ->
  exists cm t cs s g, co = Some cm /\ build_transformation W (gaussian cm) cat data c = Ok (t, cs) /\ sch c = Ok s
    /\ plan_of r = Some (adj, g) /\ g_keys g = k /\ g_outs g = [o]
    /\ (good t cs -> (forall i, sc_id s = Some i -> v_place t = PKeys i) ->
        (forall c, In c (dkeys (v_dom t)) <-> In c (dkeys (sc_cols s))) ->
        forall key, counted g key = distinct_count (counted_cols cols s) (rows_with_key (keys_columns k) key (v_rows t))).
Proof.
  unfold visit_count_distinct. intros H. apply bind_ok in H as (bs & _ & H). apply bind_ok in H as (cm & CM & H).
  apply bind_ok in H as ((t & cs) & T & H). apply bind_ok in H as (s & S & H).
  assert (co = Some cm) as -> by (destruct co; [injection CM as ->; reflexivity|discriminate]). cbn [snd] in H.
  destruct (constrained_child c k cols s cs) as [c'|] eqn:CC.
  - apply bind_ok in H as (q1 & _ & H). apply visit_count_ok in H as (cm' & t' & cs' & g & [= <-] & T' & P & KK & O & H).
    exists cm, t, cs, s, g. split; [reflexivity|]. split; [exact T|]. split; [exact S|]. split; [exact P|]. split; [exact KK|]. split; [exact O|].
    intros G ID DOM key. unfold constrained_child in CC. destruct (sc_id s) as [i|] eqn:SI; [|discriminate].
    destruct (counts_only cols s i) eqn:CO; [|discriminate]. apply counts_only_spec in CO as (I1 & I2).
    change (counted g key = distinct_count (match cols with [] => dkeys (sc_cols s) | _ => cols end)
                              (rows_with_key (keys_columns k) key (v_rows t))).
    rewrite (distinct_one i _ _ I1 I2). specialize (ID i eq_refl).
    assert (exists con, c' = EnforceConstraint c con
              /\ (keys_columns k = [] /\ con = MaxRowsPerID 1
                  \/ exists g0, keys_columns k = [g0] /\ con = MaxRowsPerGroupPerID g0 1)) as (con & -> & CON).
    { destruct (keys_columns k) as [|g0 [|]]; [|destruct (existsb _ _)|]; try discriminate; injection CC as <-; eexists; split; eauto. }
    destruct (enforce_child _ _ _ _ _ _ _ T T') as (i' & P1 & P2 & D & RW & ->). rewrite ID in P1. injection P1 as <-.
    rewrite H by (eapply enforce_good; eassumption). rewrite RW.
    destruct CON as [(-> & ->)|(g0 & -> & ->)].
    + unfold rows_with_key. cbn [forallb]. rewrite !filter_true by (intros; reflexivity).
      apply count_ids_by_rows.
    + unfold rows_with_key. erewrite (filter_ext _ _ (matches_one g0 key)), (filter_ext _ _ (matches_one g0 key)).
      apply count_ids_by_rows_grouped.
  - apply bind_ok in H as (t1 & TR & H). apply bind_ok in H as (t2 & CO & H). apply finish_inv in H as (kb & qb & _ & -> & _).
    exists cm, t, cs, s. eexists. split; [reflexivity|]. split; [exact T|]. split; [exact S|]. cbn [plan_of].
    split; [reflexivity|]. split; [reflexivity|]. split; [reflexivity|]. intros G ID DOM key.
    unfold counted. cbn [g_agg g_keys g_table]. rewrite group_eq. apply (truncated_same _ _ _ _ G) in TR as (TR & TD).
    unfold counted_columns in CO. destruct cols as [|c0 cols].
    + injection CO as ->. apply distinct_count_same; [apply rows_with_key_same, TR|]. intros x. rewrite TD. apply DOM.
    + destruct k as [kc rows|kc]; [|discriminate]. apply bind_ok in CO as ((t3 & cs3) & SEL & CO). injection CO as <-. cbn [fst].
      apply select_cols in SEL as (-> & DS). cbn [keys_columns]. cbn [counted_cols].
      etransitivity; [|apply distinct_count_same; [apply rows_with_key_same, TR|reflexivity]].
      apply (distinct_select (dkeys kc) (c0 :: cols)). exact DS.
Qed.
End Count.
