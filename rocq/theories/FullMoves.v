(** What one call does to the sessions of a tree. *)
From Coq Require Import String Bool Arith ZArith QArith Qcanon Lia Lqa Permutation List.
From Verif Require Import Prelude Budget BudgetProofs Value Rows Constraints Schema SchemaProofs Query Transform TransformSpec
  Tables TablesProofs Accountant AccountantProofs Session SessionSpec SessionMoney SessionSteps SessionTables SessionInv SessionViews SessionWell SessionSound PersonSession.
Import ListNotations.
Local Open Scope string_scope.
Local Open Scope nat_scope.

Definition tables (s : sess) (n : string) : option vtab := dget n (named (s_tree s)).

Lemma data_set_iff (s' : sess) p t c : find p t = Some c -> forall q x, data_at (Accountant.change p (set_data s') t) q x <-> (q = p /\ x = s') \/ (q <> p /\ data_at t q x).
Proof.
  intros F q x. split; [apply (data_change_set _ _ _ _ F)|]. intros [(-> & ->)|(NP & (d & FD & <-))].
  - eexists. rewrite find_change, F. split; [reflexivity|]. destruct c; reflexivity.
  - destruct (path_cases p q) as [->|[(r & NR & ->)|NB]]; [contradiction| |].
    + exists d. split; [|reflexivity]. rewrite find_change_below, F. rewrite find_app, F in FD. destruct r as [|(k, i) r]; [now destruct NR|]. destruct c. exact FD.
    + pose proof (find_change_other (set_data s') p q t NB) as FO. rewrite FD in FO. destruct (find q (Accountant.change p (set_data s') t)) as [d'|] eqn:FQ; [|discriminate]. injection FO as _ ED. exists d'. auto.
Qed.
Lemma data_split_iff (s' : sess) l p t c : find p t = Some c -> forall q x, data_at (Accountant.change p (split_at s' l) t) q x <->
  (q = p /\ x = s') \/ (exists i, q = (p ++ [(length (a_parts c), i)])%list /\ nth_error l i = Some x) \/ (q <> p /\ data_at t q x).
Proof.
  intros F q x. split; [apply (data_change_split _ _ _ _ _ F)|]. intros [(-> & ->)|[(i & -> & N)|(NP & (d & FD & <-))]].
  - eexists. rewrite find_change, F. split; [reflexivity|]. destruct c; reflexivity.
  - unfold data_at. rewrite find_change_below, F. rewrite find_step. unfold split_at. cbn [a_parts]. rewrite nth_error_app2, Nat.sub_diag by lia. cbn [nth_error].
    destruct l as [|s l]; [destruct i; discriminate|]. destruct i as [|i]; cbn [new_parts nth_error] in *; [injection N as ->; eexists; split; reflexivity|].
    rewrite nth_error_map, N. eexists. split; reflexivity.
  - destruct (path_cases p q) as [->|[(r & NR & ->)|NB]]; [contradiction| |].
    + exists d. split; [|reflexivity]. rewrite find_change_below, F. rewrite find_app, F in FD. destruct r as [|(k, i) r]; [now destruct NR|]. rewrite find_step in *. unfold split_at. cbn [a_parts].
      destruct (nth_error (a_parts c) k) as [part|] eqn:NK; [|discriminate]. rewrite nth_error_app1 by (apply nth_error_Some; congruence). rewrite NK. exact FD.
    + pose proof (find_change_other (split_at s' l) p q t NB) as FO. rewrite FD in FO. destruct (find q (Accountant.change p (split_at s' l) t)) as [d'|] eqn:FQ; [|discriminate]. injection FO as _ ED. exists d'. auto.
Qed.

Section Moves.
Variable E : env.
Notation W := (e_world E).
Definition same_sessions (st st1 : state) : Prop := forall p s, session st1 p s <-> session st p s.
Definition one_session (st st1 : state) (p : path) (s1 : sess) : Prop :=
  forall p' s', session st1 p' s' <-> (p' = p /\ s' = s1) \/ (p' <> p /\ session st p' s').
Inductive moves (st : state) : op -> state -> res unit -> Prop :=
| MSame o st1 r : same_sessions st st1 -> (forall x, r = Ok x -> match o with AddPublic _ _ _ | Stop _ => True | _ => False end) -> moves st o st1 r
| MCharged p q b s adj rest st1 o : o = Evaluate p q b \/ o = SpendOnly p q b -> session st p s ->
    compile_and_get_info E s (st_public st) q b = Ok adj -> spend (s_left s) adj = Some rest ->
    one_session st st1 p (charged s rest (Measured adj)) -> moves st o st1 (Ok tt)
| MView p q n c s cat data y s1 st1 : session st p s -> catalog_of (s_tree s) (st_public st) (s_cons s) = Ok cat -> data_of (s_tree s) = Ok data ->
    build_transformation W (is_rho (s_left s)) cat data q = Ok y -> s_left s1 = s_left s ->
    (forall m, tables s1 m = if String.eqb m n then Some (fst y) else tables s m) -> one_session st st1 p s1 -> moves st (CreateView p q n c) st1 (Ok tt)
| MDelete p n s s1 st1 : session st p s -> s_left s1 = s_left s -> (forall m, tables s1 m = if String.eqb m n then None else tables s m) ->
    one_session st st1 p s1 -> moves st (DeleteView p n) st1 (Ok tt)
| MSplit p src b col sp s b1 adj rest t t1 pl c st1 : session st p s -> find p (st_root st) = Some c -> lift_pure E (s_left s) b = Ok b1 ->
    validate_type (s_left s) b1 = Ok tt -> process_budget E (s_left s) b1 = Ok adj -> spend (s_left s) adj = Some rest ->
    partition_of E s src col (map snd sp) t t1 pl ->
    (forall p' s', session st1 p' s' <-> (p' = p /\ s' = charged s rest (Split adj))
      \/ (exists i nm v, p' = (p ++ [(length (a_parts c), i)])%list /\ nth_error sp i = Some (nm, v)
            /\ s' = part_session adj (v_coll t) (v_dom t) nm {| t_place := pl; t_rows := filter (has_value col v) (t_rows t1) |})
      \/ (p' <> p /\ session st p' s')) -> moves st (Partition p src b col sp) st1 (Ok tt).

Lemma quiet_same st st1 : quiet st st1 -> same_sessions st st1.
Proof. intros (Q & _) p s. split; apply quiet_session; congruence. Qed.
Lemma ready_one st st0 p s s1 : session_at st p = Ok s -> ready st st0 p -> one_session st (set_root st0 (Accountant.change p (set_data s1) (st_root st0))) p s1.
Proof.
  intros S RD p' s'. destruct (ready_session _ _ _ _ S RD) as (c0 & F0 & D0 & A0). pose proof (quiet_same _ _ (proj1 RD) p' s') as QS.
  unfold session, set_root in *. cbn [st_root] in *. rewrite (data_set_iff s1 p _ c0 F0). rewrite QS. reflexivity.
Qed.
Lemma step_moves st o st1 r : ok (st_root st) -> all_sessions tables_ok st -> step E st o = (st1, r) -> moves st o st1 r.
Proof.
  intros O TA ST. apply step_effect in ST; [|exact O].
  destruct ST as [o st1 e Q|p st1 r Q RT|p q b s adj rest st0 o K S C SD RL RD|p n f f' s names S I PS D M CS
    |p q n c s names cat data y x1 z z' x4 st0 S I PS M D CA DA BT AT AR RN RN2 RD|p n s rf cols x1 x2 st0 S F L RN DT RD
    |p src b col sp s b1 adj y rest space r st0 S LP V I PB CP SD RD G].
  - apply MSame; [apply quiet_same, Q|discriminate].
  - apply MSame; [apply quiet_same, Q|intros; exact Logic.I].
  - eapply MCharged; [exact K|apply session_at_iff, S|exact C|exact SD|]. apply (ready_one st st0 p s); assumption.
  - apply MSame; [intros p' s'; reflexivity|intros; exact Logic.I].
  - pose proof (proj1 (session_at_iff _ _ _) S) as S0.
    destruct (view_tables E q n c (s_tree s) x1 cat data y z z' x4 names (tk_layout s (TA p s S0)) PS M DA _ BT AT AR RN RN2) as (L4 & P4).
    eapply MView; [exact S0|exact CA|exact DA|exact BT| | |apply (ready_one st st0 p s); assumption]; [reflexivity|].
    intros m. unfold tables. cbn [s_tree with_tables]. rewrite (perm_dget _ _ m (layout_nodup _ L4) P4). reflexivity.
  - pose proof (proj1 (session_at_iff _ _ _) S) as S0. pose proof (tk_layout s (TA p s S0)) as LY. destruct (delete_tables E n _ _ _ _ LY F RN DT) as (t & _ & _ & L2 & P2).
    eapply MDelete; [exact S0| | |apply (ready_one st st0 p s); assumption]; [reflexivity|].
    intros m. unfold tables. cbn [s_tree with_tables]. rewrite (perm_dget _ _ m (layout_nodup _ LY) P2). cbn. destruct (String.eqb_spec m n) as [->|_]; [|reflexivity]. apply dget_None.
    pose proof (Permutation_NoDup (Permutation_map fst P2) (layout_nodup _ LY)) as ND. cbn in ND. inversion ND as [|? ? NI _]. exact NI.
  - destruct (split_space E _ _ _ _ _ _ _ _ _ TA S CP G) as (-> & G1). pose proof (proj1 (session_at_iff _ _ _) S) as S0.
    destruct (ready_session _ _ _ _ S RD) as (c0 & F0 & D0 & A0).
    destruct (partition_parts E s _ _ _ _ _ (TA p s S0) CP) as (t & t1 & pl & PO & ->). cbn [fst snd] in *.
    rewrite (get_id_space_spec _ _ _ _ (tk_layout s (TA p s S0)) (po_table _ _ _ _ _ _ _ _ PO)) in G1. injection G1 as <-.
    pose proof S0 as (c & FC & DC). destruct (payload_find (st_root st0) (st_root st) p c0 (proj1 (proj1 RD)) F0) as (c2 & F2 & P2). rewrite FC in F2. injection F2 as <-.
    assert (LE : length (a_parts c) = length (a_parts c0)) by (rewrite !payload_eta in P2; injection P2 as _ P2; apply (f_equal (@length _)) in P2; rewrite !map_length in P2; exact P2).
    eapply MSplit; [exact S0|exact FC|exact LP|exact V|exact PB|exact SD|exact PO|].
    intros p' s'. pose proof (quiet_same _ _ (proj1 RD) p' s') as QS. unfold session, set_root in *. cbn [st_root] in *.
    rewrite (data_split_iff _ _ p _ c0 F0), QS, LE.
    assert (CB : forall B (f : string * value -> B) (l : list (string * value)), combine (map fst l) (map f l) = map (fun e => (fst e, f e)) l) by (clear; intros B f l; induction l as [|e l IH]; [reflexivity|cbn; rewrite IH; reflexivity]).
    unfold dkeys. rewrite map_map, CB. setoid_rewrite nth_error_map. setoid_rewrite nth_error_map.
    split; (intros [X|[X|X]]; [left; exact X| |right; right; exact X]); right; left.
    + destruct X as (i & -> & N). destruct (nth_error sp i) as [(nm, v)|] eqn:NE; [|discriminate]. cbn in N. injection N as <-. exists i, nm, v. auto.
    + destruct X as (i & nm & v & -> & N & ->). exists i. rewrite N. auto.
Qed.
End Moves.
