(** What the parts of a partition contain. *)
From Coq Require Import String Bool Arith ZArith QArith Lia Permutation List.
From Verif Require Import Prelude Budget BudgetProofs Value Rows Constraints ConstraintsSpec ConstraintsProofs Schema SchemaProofs Query Transform TransformSpec
  TransformConform TransformVisit TransformAgree QueryProofs QuerySame Tables TablesProofs
  Accountant AccountantProofs Session SessionSpec SessionMoney SessionSteps SessionTables SessionInv SessionUse SessionViews SessionWell SessionNames.
Import ListNotations.
Local Open Scope string_scope.
Local Open Scope nat_scope.

(** ** Specification *)

(** The truncation before a table with privacy IDs is split by [col]: by the number of
    values of [col] per ID if that is known, or else by the rows per ID. *)
Definition splitting_constraint (col : string) (cs : list constraint) (c : constraint) : Prop :=
  In c cs /\ match c with
  | MaxGroupsPerID g _ => g = col
  | MaxRowsPerID _ => forall m, ~ In (MaxGroupsPerID col m) cs
  | _ => False
  end.

(** The [i]-th part of a partition of [t] by [col]; [rows] are the rows that are split. *)
Record is_part (st' : state) (t : vtab) (keeps_ids : bool) (col : string) (rows : table) (name : string) (v : value) (q : path) : Prop := {
  ip_session : exists child part, session st' q child /\ named (s_tree child) = [(name, part)]
    /\ v_rows part = filter (has_value col v) rows
    /\ v_dom part = v_dom t
    /\ v_place part = (if keeps_ids then v_place t else PSym)
    /\ v_coll part = (if keeps_ids then v_coll t else None)
    /\ s_cons child = [(name, [])]
    /\ s_log child = [] /\ s_left child = s_initial child
}.

Section Parts.
Variable E : env.
Notation W := (e_world E).

Lemma new_parts_nth (l : list sess) i s : nth_error l i = Some s -> exists c, nth_error (new_parts l) i = Some c /\ a_data c = s.
Proof.
  destruct l as [|x l]; [destruct i; discriminate|]. destruct i as [|i]; cbn; intros H.
  - injection H as <-. eexists. split; reflexivity.
  - rewrite nth_error_map, H. eexists. split; reflexivity.
Qed.
Lemma combine_nth {A B} (a : list A) (b : list B) : forall i x y, nth_error a i = Some x -> nth_error b i = Some y -> nth_error (combine a b) i = Some (x, y).
Proof. revert b. induction a as [|a0 a IH]; intros [|b0 b] [|i] x y; cbn; try discriminate; [congruence|apply IH]. Qed.

Lemma part_step st p src b col sp st' l s : ok (st_root st) -> all_sessions tables_ok st -> session st p s ->
  partition_and_create E st p src b col sp = (st', Ok l) ->
  exists n adj t t1 pl, partition_of E s src col (map snd sp) t t1 pl
    /\ l = combine (dkeys sp) (map (fun i => (p ++ [(n, i)])%list) (seq 0 (length sp)))
    /\ forall i name v, nth_error sp i = Some (name, v) ->
         session st' (p ++ [(n, i)])%list (part_session adj (v_coll t) (v_dom t) name {| t_place := pl; t_rows := filter (has_value col v) (t_rows t1) |}).
Proof.
  intros O TK SS P. unfold partition_and_create in P.
  apply attempt_inv in P as [(e & _ & _ & ?)|(s0 & S1 & P)]; [discriminate|].
  assert (s0 = s) by (apply session_at_iff in S1; eapply session_unique; eassumption). subst s0.
  apply attempt_inv in P as [(e & _ & _ & ?)|(b1 & S2 & P)]; [discriminate|].
  apply attempt_inv in P as [(e & _ & _ & ?)|([] & S3 & P)]; [discriminate|].
  apply attempt_inv in P as [(e & _ & _ & ?)|([] & S4 & P)]; [discriminate|].
  apply attempt_inv in P as [(e & _ & _ & ?)|(adj & S5 & P)]; [discriminate|].
  apply attempt_inv in P as [(e & _ & _ & ?)|(y & S6 & P)]; [discriminate|].
  apply activated_inv in P as [(e & _ & ? & _)|(st1 & RD & P)]; [discriminate| |exact O].
  destruct (spend (s_left s) adj) as [rest|] eqn:SP; [|discriminate]. destruct (ready_session _ _ _ _ S1 RD) as (c & F & D & A). rewrite F in P.
  destruct (get_id_space (s_tree s) (st_public st1) src) as [space|e] eqn:G; [|discriminate]. injection P as <- <-.
  pose proof (TK p s SS) as TS. destruct (partition_parts E s _ _ _ _ _ TS S6) as (t & t1 & pl & PO & ->). cbn [fst snd].
  rewrite (get_id_space_spec _ _ _ _ (tk_layout s TS) (po_table _ _ _ _ _ _ _ _ PO)) in G. injection G as <-.
  exists (length (a_parts c)), adj, t, t1, pl. split; [exact PO|]. split.
  - rewrite map_length, combine_length, !map_length. unfold dkeys. rewrite map_length, Nat.min_id. reflexivity.
  - intros i name v NI. unfold session, data_at. cbn [st_root set_root]. rewrite find_change_below, F. cbn [find split_at a_parts]. rewrite nth_mid.
    match goal with |- context [new_parts ?l] => destruct (new_parts_nth l i (part_session adj (v_coll t) (v_dom t) name {| t_place := pl; t_rows := filter (has_value col v) (t_rows t1) |})) as (c1 & N1 & D1) end.
    + rewrite nth_error_map. erewrite combine_nth; [reflexivity| |].
      * unfold dkeys. rewrite nth_error_map, NI. reflexivity.
      * rewrite !nth_error_map, NI. reflexivity.
    + rewrite N1. exists c1. split; [reflexivity|exact D1].
Qed.

Lemma find_first {A} (f : A -> bool) l x : List.find f l = Some x -> In x l /\ f x = true.
Proof. apply find_some. Qed.
Lemma splitting col cs c : partition_constraint col cs = Some c -> splitting_constraint col cs c.
Proof.
  unfold partition_constraint. destruct (List.find _ cs) as [c0|] eqn:F.
  - intros [= <-]. apply find_some in F as (I & B). destruct c0 as [| g m |]; try discriminate. split; [exact I|]. apply String.eqb_eq, B.
  - intros G. apply find_some in G as (I & B). destruct c as [m| |]; try discriminate. split; [exact I|]. intros m0 I0. pose proof (find_none _ _ F _ I0) as X. cbn in X. rewrite String.eqb_refl in X. discriminate.
Qed.
Definition keeps_groups (c : constraint) : bool := match c with MaxGroupsPerID _ _ => true | _ => false end.

(** What is split, and where the parts are. *)
Lemma split_rows s src col values t t1 pl : tables_ok s -> partition_of E s src col values t t1 pl ->
  (id_column (v_place t) = None /\ t_rows t1 = v_rows t /\ pl = PSym)
  \/ exists idc cs c, v_place t = PKeys idc /\ dget src (s_cons s) = Some cs /\ splitting_constraint col cs c
       /\ t_rows t1 = enforce_rows (w_row_order W) (w_key_order W) idc c (v_rows t)
       /\ pl = if keeps_groups c then v_place t else PSym.
Proof.
  intros TS PO. destruct (partition_ids E _ _ _ _ _ _ _ TS PO) as (PL & _). pose proof (po_truncated _ _ _ _ _ _ _ _ PO) as PT. pose proof (po_place _ _ _ _ _ _ _ _ PO) as PP.
  unfold placed in PL. destruct (v_place t) as [idc| |g l2 i|g l2] eqn:VP.
  - right. destruct PT as (c & PC & EN).
    assert (exists cs, dget src (s_cons s) = Some cs) as (cs & CS).
    { apply in_dkeys, TS, in_dkeys. exists t. apply PO. }
    rewrite CS in PC. apply splitting in PC. exists idc, cs, c. split; [reflexivity|]. split; [exact CS|]. split; [exact PC|]. destruct PC as (_ & PC).
    destruct c as [m|g m|g m]; [| |contradiction]; cbn in EN; injection EN as <-; cbn [t_rows t_place] in *; (split; [reflexivity|]); cbn in PP.
    + injection PP as <-. reflexivity.
    + subst g. rewrite String.eqb_refl, Bool.eqb_reflx in PP. injection PP as <-. reflexivity.
  - left. subst t1. split; [reflexivity|]. split; [reflexivity|]. cbn in PP. congruence.
  - destruct PL.
  - left. subst t1. split; [reflexivity|]. split; [reflexivity|]. cbn in PP. destruct (_ && _); [|discriminate]. congruence.
Qed.

Definition truncated (t : vtab) (c : option constraint) : table :=
  match id_column (v_place t), c with
  | Some idc, Some c => enforce_rows (w_row_order W) (w_key_order W) idc c (v_rows t)
  | _, _ => v_rows t
  end.
Lemma parts_spec st p src b col sp st' l s : ok (st_root st) -> all_sessions tables_ok st -> session st p s ->
  partition_and_create E st p src b col sp = (st', Ok l) ->
  exists t c, dget src (named (s_tree s)) = Some t
    /\ NoDup (map snd sp) /\ length l = length sp
    /\ match id_column (v_place t), c with
       | None, None => True
       | Some _, Some c => exists cs, dget src (s_cons s) = Some cs /\ splitting_constraint col cs c
       | _, _ => False
       end
    /\ forall i name v, nth_error sp i = Some (name, v) -> exists q, nth_error l i = Some (name, q)
         /\ is_part st' t (match c with Some c => keeps_groups c | None => false end) col (truncated t c) name v q.
Proof.
  intros O TK SS P. destruct (part_step _ _ _ _ _ _ _ _ _ O TK SS P) as (n & adj & t & t1 & pl & PO & -> & PS).
  assert (PLS : forall i name v, nth_error sp i = Some (name, v) -> nth_error (combine (dkeys sp) (map (fun i => (p ++ [(n, i)])%list) (seq 0 (length sp)))) i = Some (name, (p ++ [(n, i)])%list)).
  { intros i name v NI. apply combine_nth; [unfold dkeys; rewrite nth_error_map, NI; reflexivity|]. rewrite nth_error_map.
    assert (LT : i < length sp) by (apply nth_error_Some; congruence). rewrite (nth_error_nth' (seq 0 (length sp)) 0) by (rewrite seq_length; exact LT). cbn. rewrite seq_nth by exact LT. reflexivity. }
  assert (LL : length (combine (dkeys sp) (map (fun i => (p ++ [(n, i)])%list) (seq 0 (length sp)))) = length sp) by (unfold dkeys; rewrite combine_length, !map_length, seq_length; lia).
  pose proof (partition_ids E _ _ _ _ _ _ _ (TK p s SS) PO) as (PL & PI).
  destruct (split_rows _ _ _ _ _ _ _ (TK p s SS) PO) as [(ID & RO & ->)|(idc & cs & c & VP & CS & SC & RO & EP)].
  - exists t, None. split; [apply PO|]. split; [apply PO|]. split; [exact LL|]. split; [rewrite ID; exact I|]. intros i name v NI. exists (p ++ [(n, i)])%list. split; [eapply PLS, NI|].
    constructor. eexists. eexists. split; [eapply PS, NI|]. split; [apply part_named; exact I|]. unfold truncated. rewrite ID. cbn. rewrite RO. repeat split.
  - exists t, (Some c). split; [apply PO|]. split; [apply PO|]. split; [exact LL|]. split; [rewrite VP; cbn; eauto|]. intros i name v NI. exists (p ++ [(n, i)])%list. split; [eapply PLS, NI|].
    assert (NV : match pl with PKeys _ => v_coll t <> None | PSym => True | _ => False end) by (unfold placed in PL; rewrite VP in PL; destruct pl; auto).
    constructor. eexists. eexists. split; [eapply PS, NI|]. split; [apply part_named; exact NV|]. unfold truncated. rewrite VP. cbn [id_column part_table v_rows v_dom v_place v_coll t_place t_rows]. rewrite RO. split; [reflexivity|]. split; [reflexivity|].
    split; [subst pl; destruct (keeps_groups c); congruence|]. split; [|repeat split]. subst pl. destruct (keeps_groups c); [|reflexivity]. rewrite VP. reflexivity.
Qed.
End Parts.

(** ** Sums over parts *)
Lemma parts_total (col : string) (t : table) : forall vs, NoDup vs -> list_sum (map (fun v => length (filter (has_value col v) t)) vs) <= length t.
Proof.
  induction t as [|r t IH]; intros vs N; [induction vs; cbn in *; [lia|]; inversion N; subst; auto|].
  assert (X : list_sum (map (fun v => length (filter (has_value col v) (r :: t))) vs)
    = list_sum (map (fun v => length (filter (has_value col v) t)) vs) + count_occ value_eq_dec vs (getv col r)).
  { clear IH N. induction vs as [|v vs IV]; [reflexivity|]. cbn [map list_sum fold_right]. change (fold_right Nat.add 0) with list_sum. rewrite IV. cbn [filter]. cbn [count_occ].
    destruct (value_eq_dec v (getv col r)) as [->|NE].
    - assert (T : has_value col (getv col r) r = true) by (apply has_value_true; reflexivity). rewrite T. cbn [length]. lia.
    - assert (T : has_value col v r = false) by (apply has_value_false; congruence). rewrite T. lia. }
  rewrite X. specialize (IH vs N). pose proof (proj1 (NoDup_count_occ value_eq_dec vs) N (getv col r)). cbn [length]. lia.
Qed.
Lemma filter_swap {A} (f g : A -> bool) l : filter f (filter g l) = filter g (filter f l).
Proof. induction l as [|a l IH]; [reflexivity|]. cbn. destruct (g a) eqn:G, (f a) eqn:F; cbn; rewrite ?F, ?G, ?IH; reflexivity. Qed.
Lemma rows_bound idc m col t i vs : satisfies idc (MaxRowsPerID m) t -> NoDup vs ->
  list_sum (map (fun v => length (rows_of idc i (filter (has_value col v) t))) vs) <= m.
Proof.
  intros S N. specialize (S i). cbn in S. etransitivity; [|exact S]. etransitivity; [|apply (parts_total col (rows_of idc i t) vs N)].
  apply Nat.eq_le_incl. f_equal. apply map_ext. intros v. unfold rows_of. rewrite filter_swap. reflexivity.
Qed.
Lemma groups_bound idc m col t i vs : satisfies idc (MaxGroupsPerID col m) t -> NoDup vs ->
  (forall v, In v vs -> rows_of idc i (filter (has_value col v) t) <> []) -> length vs <= m.
Proof.
  intros S N H. apply (S i vs N). intros v I. specialize (H v I). destruct (rows_of idc i (filter (has_value col v) t)) as [|r l] eqn:R; [contradiction|].
  exists r. assert (X : In r (rows_of idc i (filter (has_value col v) t))) by (rewrite R; left; reflexivity). unfold rows_of in *. apply filter_In in X as (X & HI). apply filter_In in X as (X & HV).
  split; [apply filter_In; auto|apply has_value_true, HV].
Qed.

(** ** One ID more or less *)
Section Influence.
Variables (row_order : order rec) (key_order : value -> order value).
Lemma other_parts_same idc c col t i v : rows_of idc i (filter (has_value col v) (enforce_rows row_order key_order idc c t)) = [] ->
  filter (has_value col v) (enforce_rows row_order key_order idc c (filter (fun r => negb (has_value idc i r)) t)) = filter (has_value col v) (enforce_rows row_order key_order idc c t).
Proof.
  intros H. pose proof (enforce_rows_by_id row_order key_order idc c t (fun w => negb (value_eqb w i))) as B. unfold has_value in *. rewrite <- B. rewrite filter_swap.
  unfold rows_of in H. revert H. generalize (enforce_rows row_order key_order idc c t). intros l. induction l as [|r l IH]; [reflexivity|]. cbn. fold (has_value col v r) in *. unfold has_value in *.
  destruct (value_eqb (getv col r) v) eqn:V; cbn; [|exact IH]. destruct (value_eqb (getv idc r) i) eqn:I; cbn; [discriminate|]. intros X. rewrite IH by exact X. reflexivity.
Qed.
Lemma few_parts_change idc c col a b vs : one_id_apart idc a b -> NoDup vs -> (match c with MaxGroupsPerID g _ => g = col | MaxRowsPerID _ => True | _ => False end) ->
  exists changed, length changed <= (match c with MaxRowsPerID m | MaxGroupsPerID _ m | MaxRowsPerGroupPerID _ m => m end)
    /\ NoDup changed /\ incl changed vs
    /\ forall v, In v vs -> ~ In v changed -> same_table (filter (has_value col v) (enforce_rows row_order key_order idc c a)) (filter (has_value col v) (enforce_rows row_order key_order idc c b)).
Proof.
  intros AP N CO.
  assert (MAIN : forall i t t', same_table t' (filter (fun r => negb (has_value idc i r)) t) ->
    exists changed, length changed <= (match c with MaxRowsPerID m | MaxGroupsPerID _ m | MaxRowsPerGroupPerID _ m => m end)
    /\ NoDup changed /\ incl changed vs
    /\ forall v, In v vs -> ~ In v changed -> same_table (filter (has_value col v) (enforce_rows row_order key_order idc c t)) (filter (has_value col v) (enforce_rows row_order key_order idc c t'))).
  { intros i t t' ST. set (T := enforce_rows row_order key_order idc c t).
    pose proof (enforce_rows_sat row_order key_order idc c t) as SAT. fold T in SAT.
    exists (filter (fun v => negb (length (rows_of idc i (filter (has_value col v) T)) =? 0)) vs). split; [|split; [|split]].
    - assert (NF : NoDup (filter (fun v => negb (length (rows_of idc i (filter (has_value col v) T)) =? 0)) vs)) by (apply List.NoDup_filter, N).
      assert (NZ : forall v, In v (filter (fun v => negb (length (rows_of idc i (filter (has_value col v) T)) =? 0)) vs) -> length (rows_of idc i (filter (has_value col v) T)) > 0).
      { intros v I. apply filter_In in I as (_ & I). apply negb_true_iff, Nat.eqb_neq in I. lia. }
      revert NF NZ. generalize (filter (fun v => negb (length (rows_of idc i (filter (has_value col v) T)) =? 0)) vs). intros ws NW NZ.
      destruct c as [m|g m|g m]; [| |contradiction].
      + etransitivity; [|apply (rows_bound idc m col T i ws SAT NW)]. clear - NZ. induction ws as [|w ws IH]; [cbn; lia|]. cbn [map list_sum fold_right length].
        specialize (IH (fun v I => NZ v (or_intror I))). specialize (NZ w (or_introl eq_refl)). change (fold_right Nat.add 0) with list_sum. lia.
      + subst g. eapply groups_bound; [exact SAT|exact NW|]. intros v I X. specialize (NZ v I). rewrite X in NZ. cbn in NZ. lia.
    - apply List.NoDup_filter, N.
    - intros v I. apply filter_In in I. tauto.
    - intros v I NI. assert (Z : rows_of idc i (filter (has_value col v) T) = []).
      { destruct (rows_of idc i (filter (has_value col v) T)) eqn:R; [reflexivity|]. destruct NI. apply filter_In. split; [exact I|]. rewrite R. reflexivity. }
      pose proof (other_parts_same idc c col t i v Z) as Q. unfold T. rewrite <- Q. apply Permutation_filter. symmetry. apply enforce_rows_same. exact ST. }
  destruct AP as (i & [AP|AP]).
  - apply (MAIN i a b AP).
  - destruct (MAIN i b a AP) as (ch & L & NC & IC & X). exists ch. split; [exact L|]. split; [exact NC|]. split; [exact IC|]. intros v I NI. symmetry. apply X; assumption.
Qed.
End Influence.
(** One row more or less, and no privacy IDs. *)
Lemma one_row_one_part col a b r vs : same_table b (r :: a) -> forall v, In v vs -> v <> getv col r -> same_table (filter (has_value col v) a) (filter (has_value col v) b).
Proof.
  intros S v _ NE. apply (Permutation_filter (has_value col v)) in S. unfold same_table. rewrite S. cbn.
  assert (T : has_value col v r = false) by (apply has_value_false; congruence). rewrite T. reflexivity.
Qed.
