(** How the parts of a partition share what two tables are apart. *)
From Coq Require Import String Bool Arith ZArith QArith Qcanon Lia Lqa Permutation List.
From Verif Require Import Prelude Budget BudgetProofs Value Rows Constraints ConstraintsSpec ConstraintsProofs ConstraintsStab Schema SchemaProofs Query Transform TransformSpec TransformConform TransformVisit TransformIds
  Tables TablesProofs Accountant Session SessionSpec SessionTables SessionInv SessionViews SessionWell SessionSound BlindSpec Blind
  Distance StabilitySpec RowStability SensitivitySpec Sensitivity PersonSession PersonAbsent FullPrivacySpec FullStability FullSessionSpec FullMoves FullNear.
Import ListNotations.
Local Open Scope string_scope.
Local Open Scope nat_scope.

(** ** Shares *)
Fixpoint qsum {A} (g : A -> Q) (l : list A) : Q := match l with [] => 0%Q | a :: l => (g a + qsum g l)%Q end.
Lemma qsum_mono {A} (g h : A -> Q) l : (forall a, In a l -> (g a <= h a)%Q) -> (qsum g l <= qsum h l)%Q.
Proof. induction l as [|a l IH]; intros H; cbn [qsum]; [lra|]. pose proof (H a (or_introl eq_refl)). pose proof (IH (fun b I => H b (or_intror I))). lra. Qed.
Lemma qsum_scale {A} (g : A -> Q) c l : (qsum (fun a => g a * c) l == qsum g l * c)%Q.
Proof. induction l as [|a l IH]; cbn [qsum]; [lra|]. rewrite IH. lra. Qed.
Lemma qsum_nat {A} (D : A -> nat) l : (qsum (fun a => NQ (D a)) l == NQ (list_sum (map D l)))%Q.
Proof. induction l as [|a l IH]; cbn [qsum map list_sum fold_right]; [reflexivity|]. rewrite IH. fold (list_sum (map D l)). rewrite NQ_add. reflexivity. Qed.
Lemma qsum_in {A} (g : A -> Q) l : (forall a, In a l -> (0 <= g a)%Q) -> (0 <= qsum g l)%Q /\ forall a, In a l -> (g a <= qsum g l)%Q.
Proof.
  induction l as [|b l IH]; intros H; cbn [qsum]; [split; [lra|intros a []]|]. destruct IH as (I0 & I1); [intros a I; apply H; now right|].
  pose proof (H b (or_introl eq_refl)). split; [lra|]. intros a [<-|I]; [lra|]. specialize (I1 a I). lra.
Qed.
Definition share (N n : nat) : Q := if N =? 0 then 0%Q else (NQ n / NQ N)%Q.
Lemma NQ_some N : N <> 0 -> (0 < NQ N)%Q.
Proof. intros H. unfold NQ, Qlt. cbn. lia. Qed.
Lemma share_spec {A} (D : A -> nat) l M N f : (0 <= f)%Q -> list_sum (map D l) <= M -> portion f M N ->
  (forall a, (0 <= share N (D a))%Q) /\ (qsum (fun a => share N (D a)) l <= f)%Q /\ (forall a, In a l -> portion (share N (D a)) (D a) N) /\ forall a, In a l -> (share N (D a) <= f)%Q.
Proof.
  intros F SU0 P. unfold portion in *. fold (NQ M) in P. fold (NQ N) in P. pose proof (NQ_pos M) as MP. unfold share. destruct (Nat.eqb_spec N 0) as [->|NZ].
  - assert (M0 : M = 0) by (destruct M as [|M]; [reflexivity|exfalso; pose proof (NQ_some (S M)) as X; change (NQ 0) with 0%Q in P; assert ((0 < NQ (S M))%Q) by (apply X; lia); lra]).
    assert (Z : forall a, In a l -> D a = 0).
    { intros a I. clear - SU0 M0 I. subst M. induction l as [|b l IH]; [destruct I|]. cbn [map list_sum fold_right] in SU0. unfold list_sum in *. destruct I as [->|I]; [lia|apply IH; [lia|exact I]]. }
    split; [intros; lra|]. split; [|split; [intros a I; rewrite (Z a I); apply Qle_refl|intros; exact F]].
    clear - F. assert (E : (qsum (fun _ : A => 0%Q) l == 0)%Q) by (induction l as [|a l IH]; cbn [qsum]; [reflexivity|rewrite IH; reflexivity]). rewrite E. exact F.
  - pose proof (NQ_some N NZ) as NP.
    assert (G : forall a, (0 <= NQ (D a) / NQ N)%Q) by (intros a; apply Qle_shift_div_l; [exact NP|]; pose proof (NQ_pos (D a)); lra).
    assert (SU : (qsum (fun a => NQ (D a) / NQ N)%Q l <= f)%Q).
    { unfold Qdiv. rewrite qsum_scale, qsum_nat. apply Qle_shift_div_r; [exact NP|]. pose proof (NQ_le _ _ SU0). lra. }
    split; [exact G|]. split; [exact SU|]. split.
    + intros a I. fold (NQ (D a)). fold (NQ N). rewrite Qmult_comm, Qmult_div_r by lra. lra.
    + intros a I. destruct (qsum_in (fun a => NQ (D a) / NQ N)%Q l (fun a _ => G a)) as (_ & X). specialize (X a I). cbn beta in X. lra.
Qed.

(** ** Distances of parts *)
Lemma parts_rows col vs a b : NoDup vs -> list_sum (map (fun v => row_distance (filter (has_value col v) a) (filter (has_value col v) b)) vs) <= row_distance a b.
Proof.
  intros N. apply (disjoint_distance (fun v => has_value col v) vs N). intros k k' r _ _ H H'. apply has_value_true in H. apply has_value_true in H'. congruence.
Qed.
Lemma parts_measured rho col p vs a b : NoDup vs -> match p with PSym => True | PGrouped g _ => g = col | _ => False end ->
  list_sum (map (fun v => measured_distance rho PSym (filter (has_value col v) a) (filter (has_value col v) b)) vs) <= measured_distance rho p a b.
Proof.
  intros N P. pose proof (parts_rows col vs a b N) as PR. unfold measured_distance. destruct rho; [|exact PR]. cbn [distance_squared].
  assert (SQ : list_sum (map (fun v => row_distance (filter (has_value col v) a) (filter (has_value col v) b) * row_distance (filter (has_value col v) a) (filter (has_value col v) b)) vs) <= row_distance a b * row_distance a b).
  { eapply Nat.le_trans; [apply (squares_of_sum (fun v => row_distance (filter (has_value col v) a) (filter (has_value col v) b)))|]. apply Nat.mul_le_mono; exact PR. }
  destruct p as [i| |g l i|g l]; try contradiction; [exact SQ|]. subst g. destruct l; [|exact SQ]. cbn [distance_squared].
  rewrite (grouped_support col a b (nodup value_eq_dec (vs ++ map (getv col) (a ++ b)))%list).
  2: apply NoDup_nodup. 2: { intros r I. apply nodup_In, in_app_iff. right. apply in_map, I. }
  cbn zeta. set (h := fun v => _). assert (IC : incl vs (nodup value_eq_dec (vs ++ map (getv col) (a ++ b))%list)) by (intros v I; apply nodup_In, in_app_iff; now left).
  clear - N IC. assert (X : forall (l l2 : list value), NoDup l -> incl l l2 -> list_sum (map h l) <= list_sum (map h l2)).
  { induction l as [|x l IH]; intros l2 ND I; cbn [map list_sum fold_right]; [lia|]. inversion ND as [|? ? NI ND']; subst. pose proof (I x (or_introl eq_refl)) as Ix. apply in_split in Ix as (l3 & l4 & ->).
    assert (I2 : incl l (l3 ++ l4)%list) by (intros y Iy; specialize (I y (or_intror Iy)); apply in_app_iff in I as [I|[->|I]]; [apply in_app_iff; now left|contradiction|apply in_app_iff; now right]).
    specialize (IH _ ND' I2). rewrite map_app, list_sum_app in *. cbn [map list_sum fold_right]. unfold list_sum in *. lia. }
  apply X; assumption.
Qed.
(** A person who is in at most [k] groups is in at most [k] parts. *)
Lemma parts_touched i col j k vs (a b : table) : NoDup vs -> satisfies i (MaxGroupsPerID col k) a -> b = filter (fun r => everyone_but j (getv i r)) a ->
  list_sum (map (fun v => if list_eq_dec rec_eq_dec (filter (has_value col v) a) (filter (has_value col v) b) then 0 else 1) vs) <= k.
Proof.
  intros N S ->. cbn [satisfies] in S.
  set (p := fun v => if list_eq_dec rec_eq_dec (filter (has_value col v) a) (filter (has_value col v) (filter (fun r => everyone_but j (getv i r)) a)) then false else true).
  assert (E : list_sum (map (fun v => if list_eq_dec rec_eq_dec (filter (has_value col v) a) (filter (has_value col v) (filter (fun r => everyone_but j (getv i r)) a)) then 0 else 1) vs) = length (filter p vs)).
  { clear N. induction vs as [|v vs IH]; [reflexivity|]. cbn [map list_sum fold_right filter]. unfold list_sum in IH. rewrite IH. unfold p at 2. destruct (list_eq_dec rec_eq_dec _ _); reflexivity. }
  rewrite E. apply (S j); [apply List.NoDup_filter, N|]. intros v I. apply filter_In in I as (_ & I). unfold p in I. destruct (list_eq_dec rec_eq_dec _ _) as [|NE]; [discriminate|].
  destruct (existsb (fun r => has_value col v r && has_value i j r) a) eqn:EX.
  - apply existsb_exists in EX as (r & Ir & H). apply andb_true_iff in H as (H1 & H2). exists r. split; [apply filter_In; auto|apply has_value_true, H1].
  - exfalso. apply NE. clear - EX. induction a as [|r a IH]; [reflexivity|]. cbn in EX. apply orb_false_iff in EX as (E1 & E2). specialize (IH E2). cbn [filter].
    destruct (has_value col v r) eqn:HV.
    + assert (X : everyone_but j (getv i r) = true) by (cbn in E1; unfold everyone_but; unfold has_value in E1; rewrite E1; reflexivity). rewrite X. cbn [filter]. rewrite HV. f_equal. exact IH.
    + destruct (everyone_but j (getv i r)); cbn [filter]; rewrite ?HV; exact IH.
Qed.

(** ** Parts *)
Section Parts.
Variable E : env.
Variables (gone : string -> bool) (who : string -> value).
Notation W := (e_world E).
Notation near := (near gone who).
Notation pair_near := (pair_near gone who).
Lemma near_one rho f d s s' nm x x' : named (s_tree s) = [(nm, x)] -> named (s_tree s') = [(nm, x')] -> hide x = hide x' -> pair_near rho f (of_table d nm) x x' ->
  (forall k, v_coll x = Some k -> portion f 1 (of_space d k) \/ x = x') -> near rho f d (tables s) (tables s').
Proof.
  intros N N' H P S. unfold tables. rewrite N, N'. constructor.
  - intros n. cbn [dget]. destruct (String.eqb n nm); [cbn; now rewrite H|reflexivity].
  - intros n t t'. cbn [dget]. destruct (String.eqb_spec n nm) as [->|_]; [|discriminate]. intros [= <-] [= <-]. exact P.
  - intros k. assert (DE : {v_coll x = Some k} + {v_coll x <> Some k}) by (decide equality; apply string_dec). destruct DE as [CX|NX].
    + destruct (S k CX) as [PO|EQ]; [left; exact PO|right]. intros n t. cbn [dget]. destruct (String.eqb n nm); [|discriminate]. intros [= <-] _. now rewrite EQ.
    + right. intros n t. cbn [dget]. destruct (String.eqb n nm); [|discriminate]. intros [= <-] C. contradiction.
Qed.
Lemma row_distance_refl a : row_distance a a = 0.
Proof. unfold row_distance. apply list_sum_zero. intros x _. unfold absdiff. lia. Qed.
Lemma measured_refl rho a : measured_distance rho PSym a a = 0.
Proof. unfold measured_distance. cbn. rewrite row_distance_refl. destruct rho; reflexivity. Qed.
(** Truncating both tables keeps what they have in common. *)
Lemma others_trunc c i j a b a1 b1 rho : filter (fun r => everyone_but j (getv i r)) a = filter (fun r => everyone_but j (getv i r)) b ->
  filter (fun r => everyone_but j (getv i r)) b = b ->
  enforce (w_row_order W) (w_key_order W) c true rho {| t_place := PKeys i; t_rows := a |} = Ok a1 -> enforce (w_row_order W) (w_key_order W) c true rho {| t_place := PKeys i; t_rows := b |} = Ok b1 ->
  t_rows b1 = filter (fun r => everyone_but j (getv i r)) (t_rows a1) /\ satisfies i c (t_rows a1)
  /\ match c with MaxRowsPerID m => t_place a1 = PSym /\ row_distance (t_rows a1) (t_rows b1) <= m | MaxGroupsPerID g m => t_place a1 = PGroupedIds g rho i | _ => False end.
Proof.
  intros AB B EA EB. unfold enforce in EA, EB. cbn [t_place t_rows] in *.
  pose proof (enforce_rows_by_id (w_row_order W) (w_key_order W) i c a (everyone_but j)) as ID. rewrite AB, B in ID. pose proof (enforce_rows_sat (w_row_order W) (w_key_order W) i c a) as SA.
  destruct c as [m|g m|g m]; [|injection EA as <-; injection EB as <-; cbn [t_rows t_place enforce_rows] in *; auto..|discriminate EA].
  injection EA as <-. injection EB as <-. cbn [t_rows t_place enforce_rows] in *. split; [auto|]. split; [exact SA|]. split; [reflexivity|].
  assert (OA : one_id_apart i a b) by (exists j; left; rewrite <- B, <- AB; apply Permutation_refl).
  exact (one_id_rows (w_row_order W) (w_key_order W) i (TRows m) a b OA).
Qed.
Lemma enforce_place c i rho rows y : enforce (w_row_order W) (w_key_order W) c true rho {| t_place := PKeys i; t_rows := rows |} = Ok y ->
  match c with MaxRowsPerID _ => t_place y = PSym | MaxGroupsPerID g _ => t_place y = PGroupedIds g rho i | _ => False end.
Proof. unfold enforce. cbn [t_place t_rows]. destruct c; intros H; try discriminate H; injection H as <-; reflexivity. Qed.
Lemma filter_all {A} (p : A -> bool) l : (forall x, In x l -> p x = true) -> filter p l = l.
Proof. induction l as [|x l IH]; intros H; [reflexivity|]. cbn. rewrite (H x (or_introl eq_refl)), IH; [reflexivity|]. intros y I. apply H. now right. Qed.
Lemma filter_swap {A} (p q : A -> bool) l : filter p (filter q l) = filter q (filter p l).
Proof. induction l as [|x l IH]; [reflexivity|]. cbn. destruct (p x) eqn:EP, (q x) eqn:EQ; cbn; rewrite ?EP, ?EQ, IH; reflexivity. Qed.
Lemma parts_near s s' src col vs t t1 pl t' t1' pl' f d : tables_ok s -> tables_ok s' -> hide_sess s = hide_sess s' -> (0 <= f <= 1)%Q ->
  near (is_rho (s_left s)) f d (tables s) (tables s') -> partition_of E s src col vs t t1 pl -> partition_of E s' src col vs t' t1' pl' ->
  exists g : value -> Q, (forall v, In v vs -> (0 <= g v <= 1)%Q) /\ (qsum g vs <= f)%Q
    /\ forall v nm b b', In v vs -> near (is_rho (s_left s)) (g v) (part_distances (is_rho (s_left s)) (match dget src (s_cons s) with Some cs => cs | None => [] end) t src col d)
         (tables (part_session b (v_coll t) (v_dom t) nm {| t_place := pl; t_rows := filter (has_value col v) (t_rows t1) |}))
         (tables (part_session b' (v_coll t') (v_dom t') nm {| t_place := pl'; t_rows := filter (has_value col v) (t_rows t1') |})).
Proof.
  intros TK TK' HS F NR P P'. destruct (partition_ids _ _ _ _ _ _ _ _ TK P) as (PT & PI). destruct (partition_ids _ _ _ _ _ _ _ _ TK' P') as (PT' & PI').
  assert (LF : s_left s = s_left s') by (apply (f_equal s_left) in HS; exact HS).
  assert (CO : s_cons s = s_cons s') by (apply (f_equal s_cons) in HS; exact HS).
  pose proof (nr_hide _ _ _ _ _ _ _ NR src) as HT. pose proof (nr_tables _ _ _ _ _ _ _ NR src t t' (po_table _ _ _ _ _ _ _ _ P) (po_table _ _ _ _ _ _ _ _ P')) as PN.
  unfold tables in HT. rewrite (po_table _ _ _ _ _ _ _ _ P), (po_table _ _ _ _ _ _ _ _ P') in HT. cbn [option_map] in HT.
  assert (HT1 : hide t = hide t') by congruence. clear HT. pose proof HT1 as HT. apply hide_eqs in HT as (HD & HC & HP).
  pose proof (po_truncated _ _ _ _ _ _ _ _ P) as T. pose proof (po_truncated _ _ _ _ _ _ _ _ P') as T'.
  pose proof (po_place _ _ _ _ _ _ _ _ P) as PP. pose proof (po_place _ _ _ _ _ _ _ _ P') as PP'. pose proof (po_values _ _ _ _ _ _ _ _ P) as NV.
  assert (NM : match pl with PKeys _ => v_coll t <> None | PSym => True | _ => False end) by (destruct pl; auto; unfold placed in PT; rewrite PI in PT; exact PT).
  assert (NM' : match pl' with PKeys _ => v_coll t' <> None | PSym => True | _ => False end) by (destruct pl'; auto; unfold placed in PT'; rewrite PI' in PT'; exact PT').
  rewrite <- LF, <- CO, <- HP in *. set (rho := is_rho (s_left s)) in *. set (cs := match dget src (s_cons s) with Some cs => cs | None => [] end) in *.
  assert (PN1 : forall v b nm, named (s_tree (part_session b (v_coll t) (v_dom t) nm {| t_place := pl; t_rows := filter (has_value col v) (t_rows t1) |}))
     = [(nm, part_table (v_coll t) (v_dom t) {| t_place := pl; t_rows := filter (has_value col v) (t_rows t1) |})]) by (intros; apply part_named; exact NM).
  assert (PN2 : forall v b nm, named (s_tree (part_session b (v_coll t') (v_dom t') nm {| t_place := pl'; t_rows := filter (has_value col v) (t_rows t1') |}))
     = [(nm, part_table (v_coll t') (v_dom t') {| t_place := pl'; t_rows := filter (has_value col v) (t_rows t1') |})]) by (intros; apply part_named; exact NM').
  unfold FullNear.pair_near in PN. unfold part_distances. destruct (v_coll t) as [k|] eqn:CT.
  - (* a table with IDs *)
    destruct (v_place t) as [i| | |] eqn:PX; unfold placed in PT; rewrite PX in PT; try (exfalso; congruence).
    destruct T as (c & PC & EN). destruct T' as (c' & PC' & EN'). rewrite PC in PC'. injection PC' as <-. rewrite PC.
    destruct PN as (RT & LK).
    assert (RR : filter (fun r => everyone_but (who k) (getv i r)) (v_rows t) = filter (fun r => everyone_but (who k) (getv i r)) (v_rows t')).
    { apply (f_equal v_rows) in RT. unfold restrict in RT. rewrite <- HP, <- HC, ?PX, ?CT in RT. cbn [option_eqb] in RT. rewrite String.eqb_refl in RT. exact RT. }
    assert (LL : if gone k then filter (fun r => everyone_but (who k) (getv i r)) (v_rows t') = v_rows t' else filter (fun r => everyone_but (who k) (getv i r)) (v_rows t) = v_rows t).
    { destruct (gone k); apply (f_equal v_rows) in LK; unfold restrict in LK; rewrite <- ?HP, <- ?HC, ?PX, ?CT in LK; cbn [option_eqb] in LK; rewrite String.eqb_refl in LK; exact LK. }
    pose proof (enforce_place _ _ _ _ _ EN) as EP. pose proof (enforce_place _ _ _ _ _ EN') as EP'.
    assert (ON : (t_rows t1' = filter (fun r => everyone_but (who k) (getv i r)) (t_rows t1) /\ satisfies i c (t_rows t1) /\ gone k = true
                  /\ forall m, c = MaxRowsPerID m -> row_distance (t_rows t1) (t_rows t1') <= m)
              \/ (t_rows t1 = filter (fun r => everyone_but (who k) (getv i r)) (t_rows t1') /\ satisfies i c (t_rows t1') /\ gone k = false
                  /\ forall m, c = MaxRowsPerID m -> row_distance (t_rows t1) (t_rows t1') <= m)).
    { destruct (gone k).
      - destruct (others_trunc c i (who k) _ _ t1 t1' rho RR LL EN EN') as (A & B & C). left. repeat (split; [assumption || reflexivity|]). intros m ->. apply C.
      - destruct (others_trunc c i (who k) _ _ t1' t1 rho (eq_sym RR) LL EN' EN) as (A & B & C). right. repeat (split; [assumption || reflexivity|]). intros m ->. rewrite row_distance_sym. apply C. }
    assert (SE : portion f 1 (of_space d k) \/ t_rows t1 = t_rows t1').
    { destruct (nr_share _ _ _ _ _ _ _ NR k) as [PO|AE]; [left; exact PO|right]. specialize (AE src t (po_table _ _ _ _ _ _ _ _ P) CT). unfold tables in AE. rewrite (po_table _ _ _ _ _ _ _ _ P') in AE. injection AE as ->. rewrite EN in EN'. congruence. }
    destruct c as [m|g m|g m]; [| |contradiction].
    + (* limited rows *)
      rewrite EP in PP. rewrite EP' in PP'. cbn in PP, PP'. injection PP as <-. injection PP' as <-.
      set (D := fun v => measured_distance rho PSym (filter (has_value col v) (t_rows t1)) (filter (has_value col v) (t_rows t1'))).
      assert (DM : exists M, list_sum (map D vs) <= M /\ portion f M (times rho m * of_space d k)).
      { destruct SE as [PO|ER].
        - exists (times rho m). split; [|apply (portion_mul f 1); [exact PO|lia]].
          eapply Nat.le_trans; [apply (parts_measured rho col PSym vs _ _ NV); exact Logic.I|]. assert (RD : row_distance (t_rows t1) (t_rows t1') <= m) by (destruct ON as [(_ & _ & _ & H)|(_ & _ & _ & H)]; apply H; reflexivity).
          unfold measured_distance, times. cbn [distance_squared]. destruct rho; [apply Nat.mul_le_mono; exact RD|exact RD].
        - exists 0. split; [|apply portion_zero, F]. unfold D. rewrite ER. apply Nat.eq_le_incl, list_sum_zero. intros v _. apply measured_refl. }
      destruct DM as (M & SM & PM). destruct (share_spec D vs M _ f (proj1 F) SM PM) as (S0 & S1 & S2 & S3).
      exists (fun v => share (times rho m * of_space d k) (D v)). split; [intros v I; split; [apply S0|specialize (S3 v I); lra]|]. split; [exact S1|].
      intros v nm b b' I. eapply near_one; [apply PN1|apply PN2| | |].
      * unfold part_table, hide. cbn. rewrite HD. reflexivity.
      * unfold FullNear.pair_near, part_table. cbn [v_coll t_place v_place v_rows t_rows of_table]. exact (S2 v I).
      * unfold part_table. cbn. discriminate.
    + (* limited groups *)
      rewrite EP in PP. rewrite EP' in PP'. cbn in PP, PP'. destruct (String.eqb_spec g col) as [->|]; [|discriminate]. rewrite Bool.eqb_reflx in PP, PP'. cbn in PP, PP'. injection PP as <-. injection PP' as <-.
      set (D := fun v => if list_eq_dec rec_eq_dec (filter (has_value col v) (t_rows t1)) (filter (has_value col v) (t_rows t1')) then 0 else 1).
      assert (DM : exists M, list_sum (map D vs) <= M /\ portion f M (m * of_space d k)).
      { destruct SE as [PO|ER].
        - exists m. split; [|apply (portion_mul f 1); [exact PO|lia]]. destruct ON as [(A & B & _)|(A & B & _)].
          + exact (parts_touched i col (who k) m vs _ _ NV B A).
          + replace (map D vs) with (map (fun v => if list_eq_dec rec_eq_dec (filter (has_value col v) (t_rows t1')) (filter (has_value col v) (t_rows t1)) then 0 else 1) vs); [exact (parts_touched i col (who k) m vs _ _ NV B A)|].
            apply map_ext. intros v. unfold D. destruct (list_eq_dec rec_eq_dec _ _), (list_eq_dec rec_eq_dec _ _); congruence.
        - exists 0. split; [|apply portion_zero, F]. apply Nat.eq_le_incl, list_sum_zero. intros v _. unfold D. rewrite ER. destruct (list_eq_dec rec_eq_dec _ _); congruence. }
      destruct DM as (M & SM & PM). destruct (share_spec D vs M _ f (proj1 F) SM PM) as (S0 & S1 & S2 & S3).
      exists (fun v => share (m * of_space d k) (D v)). split; [intros v I; split; [apply S0|specialize (S3 v I); lra]|]. split; [exact S1|].
      intros v nm b b' I. eapply near_one; [apply PN1|apply PN2| | |].
      * unfold part_table, hide. cbn. rewrite HD, <- HC. reflexivity.
      * unfold FullNear.pair_near, part_table. cbn [v_coll t_place v_place v_rows t_rows of_table]. rewrite <- HC. unfold restrict. cbn [v_coll v_place v_rows v_dom option_eqb]. rewrite String.eqb_refl, HD.
        assert (CF : forall l, filter (fun r => everyone_but (who k) (getv i r)) (filter (has_value col v) (filter (fun r => everyone_but (who k) (getv i r)) l)) = filter (has_value col v) (filter (fun r => everyone_but (who k) (getv i r)) l)).
        { intros l. apply filter_all. intros r Ir. apply filter_In in Ir as (Ir & _). apply filter_In in Ir as (_ & Ir). exact Ir. }
        assert (CG : forall l, filter (fun r => everyone_but (who k) (getv i r)) (filter (has_value col v) l) = filter (has_value col v) (filter (fun r => everyone_but (who k) (getv i r)) l)) by (intros l; apply filter_swap).
        destruct ON as [(-> & _ & -> & _)|(-> & _ & -> & _)]; rewrite CF, CG; split; reflexivity.
      * unfold part_table. cbn [v_coll t_place v_dom t_rows of_space]. intros k0 [= <-]. specialize (S2 v I). unfold D in S2 |- *. destruct (list_eq_dec rec_eq_dec _ _) as [ER|NE]; [right; rewrite ER, HD, <- HC; reflexivity|left; exact S2].
  - (* a table without IDs *)
    assert (T1 : t1 = {| t_place := v_place t; t_rows := v_rows t |} /\ t1' = {| t_place := v_place t; t_rows := v_rows t' |} /\ match v_place t with PSym => True | PGrouped g _ => g = col | _ => False end /\ pl = PSym /\ pl' = PSym).
    { unfold placed in PT. destruct (v_place t) as [i| |g l i|g l] eqn:PX; try contradiction; subst t1 t1'; cbn in PP, PP'; [injection PP as <-; injection PP' as <-; auto|].
      destruct (String.eqb_spec g col) as [->|]; [|discriminate]. destruct (Bool.eqb l rho); [|discriminate]. cbn in PP, PP'. injection PP as <-. injection PP' as <-. auto. }
    destruct T1 as (-> & -> & GP & -> & ->). cbn [t_rows] in *.
    set (D := fun v => measured_distance rho PSym (filter (has_value col v) (v_rows t)) (filter (has_value col v) (v_rows t'))).
    pose proof (parts_measured rho col (v_place t) vs (v_rows t) (v_rows t') NV GP) as SM. destruct (share_spec D vs _ _ f (proj1 F) SM PN) as (S0 & S1 & S2 & S3).
    exists (fun v => share (of_table d src) (D v)). split; [intros v I; split; [apply S0|specialize (S3 v I); lra]|]. split; [exact S1|].
    intros v nm b b' I. eapply near_one; [apply PN1|apply PN2| | |].
    + unfold part_table, hide. cbn. rewrite HD. reflexivity.
    + unfold FullNear.pair_near, part_table. cbn [v_coll t_place v_place v_rows t_rows of_table]. exact (S2 v I).
    + unfold part_table. cbn. discriminate.
Qed.
End Parts.
