(** The answers of a session tree, and what it becomes, do not depend on the rows of private
    tables, except for those rows. *)
From Coq Require Import String Bool Arith ZArith QArith Lia Permutation List.
From Verif Require Import Prelude Budget Value Rows Constraints Schema Query SchemaProofs Transform Tables TablesProofs
  Accountant AccountantProofs Session SessionSpec SessionMoney BlindSpec Blind.
Import ListNotations.
Local Open Scope string_scope.
Local Open Scope nat_scope.

(** ** Accountants *)

Section Map.
Context {A B : Type}.
Variable f : A -> B.
Notation F := (amap f).
Lemma amap_state t : a_state (F t) = a_state t. Proof. destruct t; reflexivity. Qed.
Lemma amap_data t : a_data (F t) = f (a_data t). Proof. destruct t; reflexivity. Qed.
Lemma amap_parts t : a_parts (F t) = map (map F) (a_parts t). Proof. destruct t; reflexivity. Qed.
Lemma find_amap : forall p t, find p (F t) = option_map F (find p t).
Proof.
  induction p as [|(k, i) p IH]; intros t; [reflexivity|]. cbn [find]. rewrite amap_parts, nth_error_map.
  destruct (nth_error (a_parts t) k) as [part|]; [|reflexivity]. cbn [option_map]. rewrite nth_error_map.
  destruct (nth_error part i) as [c|]; [|reflexivity]. apply IH.
Qed.
Lemma upd_map {X Y} (m : X -> Y) g h : (forall x, h (m x) = m (g x)) -> forall l i, upd i h (map m l) = map m (upd i g l).
Proof. intros H. induction l as [|x l IH]; intros [|i]; cbn; try reflexivity; [now rewrite H|now rewrite IH]. Qed.
Lemma change_amap g h : (forall t, h (F t) = F (g t)) -> forall p t, change p h (F t) = F (change p g t).
Proof.
  intros H. induction p as [|(k, i) p IH]; intros t; [apply H|]. cbn [change]. rewrite amap_state, amap_data, amap_parts. cbn [amap]. f_equal.
  apply upd_map. intros part. apply upd_map. apply IH.
Qed.
Lemma set_state_amap st t : set_state st (F t) = F (set_state st t).
Proof. destruct t; reflexivity. Qed.
Lemma set_data_amap s t : set_data (f s) (F t) = F (set_data s t). Proof. destruct t; reflexivity. Qed.
Lemma retire_all_amap : forall t, retire_all (F t) = F (retire_all t).
Proof.
  apply acct_ind'. intros st s parts IH. cbn [amap retire_all]. f_equal. rewrite !map_map. apply map_ext_in. intros part I.
  rewrite !map_map. apply map_ext_in. intros c J. apply (IH part c I J).
Qed.
Lemma retire_alls_amap parts : map (map retire_all) (map (map F) parts) = map (map F) (map (map retire_all) parts).
Proof. rewrite !map_map. apply map_ext. intros part. rewrite !map_map. apply map_ext. apply retire_all_amap. Qed.
Lemma reclaim_amap t : reclaim (F t) = F (reclaim t).
Proof. unfold reclaim. rewrite amap_data, amap_parts, retire_alls_amap. reflexivity. Qed.
Lemma skip_to_amap i part : skip_to i (map F part) = map F (skip_to i part).
Proof.
  unfold skip_to. rewrite firstn_map, skipn_map, map_app, !map_map. f_equal; [apply map_ext, retire_all_amap|].
  apply upd_map. apply set_state_amap.
Qed.
Lemma force_amap : forall p t, force_activate p (F t) = F (force_activate p t).
Proof.
  induction p as [|(k, i) p IH]; intros t; [apply reclaim_amap|]. destruct p as [|e p].
  - cbn [force_activate]. rewrite find_amap. destruct (find [(k, i)] t) as [c|]; [|reflexivity]. cbn [option_map]. rewrite amap_state.
    destruct (a_state c); try (apply change_amap, reclaim_amap).
    rewrite amap_state, amap_data, amap_parts. cbn [amap]. f_equal. apply upd_map. apply skip_to_amap.
  - change (force_activate ((k, i) :: e :: p) (F t)) with (Acct (a_state (F t)) (a_data (F t)) (upd k (upd i (force_activate (e :: p))) (a_parts (F t)))).
    change (force_activate ((k, i) :: e :: p) t) with (Acct (a_state t) (a_data t) (upd k (upd i (force_activate (e :: p))) (a_parts t))).
    rewrite amap_state, amap_data, amap_parts. cbn [amap]. f_equal. apply upd_map. intros part. apply upd_map. exact IH.
Qed.
Lemma retire_part_amap k i t : retire_part k i (F t) = F (retire_part k i t).
Proof.
  unfold retire_part. rewrite amap_parts, nth_error_map. destruct (nth_error (a_parts t) k) as [part|]; [|reflexivity]. cbn [option_map].
  rewrite map_length. rewrite (upd_map (map F) (upd i retire_all)) by (intros part'; apply upd_map, retire_all_amap).
  destruct (S i <? length part); rewrite ?amap_state, amap_data; cbn [amap]; f_equal.
  apply upd_map. intros part'. apply upd_map, set_state_amap.
Qed.
Lemma retire_active_amap : forall p t, retire_active p (F t) = F (retire_active p t).
Proof.
  induction p as [|(k, i) p IH]; intros t; [apply retire_all_amap|]. destruct p as [|e p]; [apply retire_part_amap|].
  change (retire_active ((k, i) :: e :: p) (F t)) with (Acct (a_state (F t)) (a_data (F t)) (upd k (upd i (retire_active (e :: p))) (a_parts (F t)))).
  change (retire_active ((k, i) :: e :: p) t) with (Acct (a_state t) (a_data t) (upd k (upd i (retire_active (e :: p))) (a_parts t))).
  rewrite amap_state, amap_data, amap_parts. cbn [amap]. f_equal. apply upd_map. intros part. apply upd_map. exact IH.
Qed.
Lemma retire_amap rw p t : retire rw p (F t) = (F (fst (retire rw p t)), snd (retire rw p t)).
Proof.
  unfold retire. rewrite find_amap. destruct (find p t) as [c|]; [|reflexivity]. cbn [option_map]. rewrite amap_state.
  destruct (a_state c); cbn [fst snd]; rewrite ?retire_active_amap; try reflexivity.
  all: destruct rw; cbn [fst snd]; rewrite ?force_amap, ?retire_active_amap; reflexivity.
Qed.
Lemma new_parts_amap l : new_parts (map f l) = map F (new_parts l).
Proof. destruct l as [|s l]; [reflexivity|]. cbn [map new_parts]. cbn [amap map]. f_equal. rewrite !map_map. apply map_ext. reflexivity. Qed.
Lemma split_amap s l t : split_at (f s) (map f l) (F t) = F (split_at s l t).
Proof. unfold split_at. rewrite amap_parts, new_parts_amap. cbn [amap]. f_equal. now rewrite map_app. Qed.
End Map.

(** ** Operations *)

Notation H := hide_state.
Definition hides {A} (x : state * res A) : state * res A := (H (fst x), snd x).

Section Ops.
Variable E : env.
Hypothesis BL : blind E.

Lemma attempt_hide {A B} st (r : res A) (k k' : A -> state * res B) : (forall a, k' a = hides (k a)) ->
  attempt (H st) r k' = hides (attempt st r k).
Proof. intros HK. destruct r; [apply HK|reflexivity]. Qed.
Lemma attempt_hide' {A A' B} (g : A -> A') st (r : res A) (k : A -> state * res B) (k' : A' -> state * res B) : (forall a, k' (g a) = hides (k a)) ->
  attempt (H st) (rmap g r) k' = hides (attempt st r k).
Proof. intros HK. destruct r; [apply HK|reflexivity]. Qed.
Lemma session_hide st p : session_at (H st) p = rmap hide_sess (session_at st p).
Proof. unfold session_at, H. cbn [st_root]. rewrite find_amap. destruct (find p (st_root st)) as [c|]; [|reflexivity]. cbn. now rewrite amap_data. Qed.
Lemma activate_hide p t : activate p (amap hide_sess t) = (amap hide_sess (fst (activate p t)), snd (activate p t)).
Proof.
  unfold activate. rewrite find_amap. destruct (find p t) as [c|]; [|reflexivity]. cbn [option_map]. rewrite amap_state.
  destruct (a_state c); cbn [fst snd]; rewrite ?force_amap; reflexivity.
Qed.
Lemma activated_hide {A} p st (k k' : state -> state * res A) : (forall st, k' (H st) = hides (k st)) ->
  activated p (H st) k' = hides (activated p st k).
Proof.
  intros HK. unfold activated. change (st_root (H st)) with (amap hide_sess (st_root st)). rewrite activate_hide.
  destruct (activate p (st_root st)) as (t, [u|e]); cbn [fst snd]; [|reflexivity].
  change (set_root (H st) (amap hide_sess t)) with (H (set_root st t)). apply HK.
Qed.
Lemma set_hide p s st : set_root (H st) (change p (set_data (hide_sess s)) (st_root (H st))) = H (set_root st (change p (set_data s) (st_root st))).
Proof. unfold set_root, H. cbn [st_root st_public]. f_equal. apply change_amap. apply set_data_amap. Qed.

Lemma compile_hide s pub q b : compile_and_get_info E (hide_sess s) pub q b = compile_and_get_info E s pub q b.
Proof.
  unfold compile_and_get_info. cbn [hide_sess s_left s_tree s_cons]. apply bind_ext. intros b'. apply bind_ext. intros _. apply bind_ext. intros _.
  apply bind_ext. intros adj. rewrite catalog_hide. apply bind_ext. intros cat. apply bind_ext. intros _. now rewrite (bl_compiles E BL).
Qed.
Lemma evaluate_hide st p q b : evaluate E (H st) p q b = hides (evaluate E st p q b).
Proof.
  unfold evaluate. rewrite session_hide. apply attempt_hide'. intros s. rewrite compile_hide. apply attempt_hide. intros adj.
  apply activated_hide. intros st1. cbn [hide_sess s_left s_tree]. rewrite (bl_relation E BL).
  destruct (negb (e_relation E (s_tree s) q adj)); [reflexivity|]. destruct (spend (s_left s) adj) as [rest|]; [|reflexivity].
  change (charged (hide_sess s) rest (Measured adj)) with (hide_sess (charged s rest (Measured adj))).
  change {| s_initial := s_initial s; s_left := s_left s; s_log := s_log s; s_tree := hide_tree (s_tree s); s_cons := s_cons s |} with (hide_sess s).
  change (charged (hide_sess s) rest (Measured adj)) with (hide_sess (charged s rest (Measured adj))).
  rewrite set_hide. reflexivity.
Qed.
Lemma spend_hide st p q b : spend_without_executing E (H st) p q b = hides (spend_without_executing E st p q b).
Proof.
  unfold spend_without_executing. rewrite session_hide. apply attempt_hide'. intros s. rewrite compile_hide. apply attempt_hide. intros adj.
  apply activated_hide. intros st1. change (s_left (hide_sess s)) with (s_left s).
  destruct (spend (s_left s) adj) as [rest|]; [|reflexivity].
  change (charged (hide_sess s) rest (Measured adj)) with (hide_sess (charged s rest (Measured adj))). rewrite set_hide. reflexivity.
Qed.
Lemma public_hide st p n f : add_public_dataframe E (H st) p n f = hides (add_public_dataframe E st p n f).
Proof.
  unfold add_public_dataframe. rewrite session_hide. apply attempt_hide'. intros s. apply attempt_hide. intros _.
  change (s_tree (hide_sess s)) with (hide_tree (s_tree s)). rewrite sources_hide. apply attempt_hide. intros names.
  apply attempt_hide. intros _. apply attempt_hide. intros f'. reflexivity.
Qed.
Lemma add_temp_hide e x : add_temp (fst e, hide (snd e)) (hide_tree x) = rmap hide_tree (add_temp e x).
Proof. unfold add_temp. cbn [fst snd]. rewrite fresh_hide. apply update_hide. intros y. apply (add_hide _ (TLeaf (snd e))). Qed.
Lemma add_temps_hide : forall l x, add_temps (map (fun e => (fst e, hide (snd e))) l) (hide_tree x) = rmap hide_tree (add_temps l x).
Proof.
  induction l as [|e l IH]; intros x; [reflexivity|]. cbn [map add_temps]. rewrite add_temp_hide, bind_rmap, rmap_bind. apply bind_ext. apply IH.
Qed.
Definition hide_ref (z : tree * ref) : tree * ref := (hide_tree (fst z), snd z).
Lemma add_result_hide t x : add_result (hide t) (hide_tree x) = rmap hide_ref (add_result t x).
Proof.
  unfold add_result. change (v_coll (hide t)) with (v_coll t). rewrite (add_temp_hide (v_coll t, t)), bind_rmap, rmap_bind, fresh_hide.
  apply bind_ext. reflexivity.
Qed.
Lemma view_hide st p q n c : create_view E (H st) p q n c = hides (create_view E st p q n c).
Proof.
  unfold create_view. rewrite session_hide. apply attempt_hide'. intros s. apply attempt_hide. intros _. apply activated_hide. intros st1.
  change (s_tree (hide_sess s)) with (hide_tree (s_tree s)). change (s_cons (hide_sess s)) with (s_cons s). change (s_left (hide_sess s)) with (s_left s).
  change (st_public (H st1)) with (st_public st1). rewrite sources_hide, catalog_hide, data_hide, (bl_temps E BL).
  apply attempt_hide. intros names. apply attempt_hide. intros _. apply attempt_hide. intros cat. apply attempt_hide'. intros data.
  rewrite build_hide. apply attempt_hide'. intros y. rewrite add_temps_hide. apply attempt_hide'. intros x1.
  change (fst (hide2 y)) with (hide (fst y)). change (snd (hide2 y)) with (snd y). rewrite add_result_hide. apply attempt_hide'. intros z.
  match goal with |- attempt _ ?r' _ = hides (attempt _ ?r _) => assert (X : r' = rmap hide_ref r) end.
  { destruct c; [|reflexivity]. change (fst (hide_ref z)) with (hide_tree (fst z)). change (snd (hide_ref z)) with (snd z). rewrite fresh_hide, rename_hide, bind_rmap, rmap_bind.
    apply bind_ext. intros x3. rewrite rmap_bind. apply bind_ext. reflexivity. }
  rewrite X. apply attempt_hide'. intros z'. change (fst (hide_ref z')) with (hide_tree (fst z')). change (snd (hide_ref z')) with (snd z'). rewrite rename_hide.
  apply attempt_hide'. intros x4.
  change (with_tables (hide_sess s) (hide_tree x4) (dset n (snd y) (s_cons s))) with (hide_sess (with_tables s x4 (dset n (snd y) (s_cons s)))).
  rewrite set_hide. reflexivity.
Qed.
Lemma delete_view_hide st p n : delete_view E (H st) p n = hides (delete_view E st p n).
Proof.
  unfold delete_view. rewrite session_hide. apply attempt_hide'. intros s. apply activated_hide. intros st1.
  change (s_tree (hide_sess s)) with (hide_tree (s_tree s)). change (s_cons (hide_sess s)) with (s_cons s). rewrite domain_hide, fresh_hide.
  destruct (find_reference n (domain_of (s_tree s))) as [r|]; [|reflexivity]. apply attempt_hide. intros d. apply attempt_hide. intros _.
  rewrite rename_hide. apply attempt_hide'. intros x1. rewrite (delete_hide _ _ _ _ (bl_shuffle E BL)). apply attempt_hide'. intros x2.
  change (with_tables (hide_sess s) (hide_tree x2) (ddel n (s_cons s))) with (hide_sess (with_tables s x2 (ddel n (s_cons s)))).
  rewrite set_hide. reflexivity.
Qed.
Definition hide_tbl (t : tbl) : tbl := {| t_place := t_place t; t_rows := [] |}.
Lemma partition_keys_hide l2 c vs t : partition_by_keys l2 c vs (hide_tbl t) = rmap (map hide_tbl) (partition_by_keys l2 c vs t).
Proof.
  unfold partition_by_keys. rewrite rmap_bind. apply bind_ext. intros _. rewrite rmap_bind. apply bind_ext. intros _. rewrite rmap_bind. apply bind_ext. intros p.
  cbn [rmap hide_tbl t_rows]. rewrite map_map. reflexivity.
Qed.
Lemma partition_hide s pub src c sp : create_partition_transformation E (hide_sess s) pub src c sp
  = rmap (fun y => (fst y, map hide_tbl (snd y))) (create_partition_transformation E s pub src c sp).
Proof.
  unfold create_partition_transformation. change (s_tree (hide_sess s)) with (hide_tree (s_tree s)). change (s_cons (hide_sess s)) with (s_cons s). change (s_left (hide_sess s)) with (s_left s).
  rewrite private_ref_hide, metric_hide, rmap_bind. apply bind_ext. intros r. rewrite rmap_bind. apply bind_ext. intros m.
  rewrite get_hide, bind_rmap, rmap_bind. apply bind_ext. intros y. rewrite leaf_hide, bind_rmap, rmap_bind. apply bind_ext. intros t.
  change (v_place (hide t)) with (v_place t). change (v_rows (hide t)) with (@nil rec). change (v_dom (hide t)) with (v_dom t).
  match goal with |- bind ?r' _ = rmap _ (bind ?r _) => assert (X : r' = rmap hide_tbl r) end.
  { destruct m as [[i| | |]| |]; try reflexivity. destruct (partition_constraint c _); [|reflexivity]. apply enforce_hide. }
  rewrite X, bind_rmap, rmap_bind. apply bind_ext. intros t1. rewrite rmap_bind. apply bind_ext. intros d. rewrite rmap_bind. apply bind_ext. intros _.
  rewrite partition_keys_hide, bind_rmap, rmap_bind. apply bind_ext. reflexivity.
Qed.
Lemma part_hide b space dom n t : part_session b space dom n (hide_tbl t) = hide_sess (part_session b space dom n t).
Proof. unfold part_session, hide_sess, part_tree. cbn. f_equal. destruct space; [destruct (t_place t)|]; reflexivity. Qed.
Lemma parts_hide b space dom ns ts : map (fun x => part_session b space dom (fst x) (snd x)) (combine ns (map hide_tbl ts))
  = map hide_sess (map (fun x => part_session b space dom (fst x) (snd x)) (combine ns ts)).
Proof.
  revert ts. induction ns as [|n ns IH]; intros [|t ts]; try reflexivity. cbn [map combine fst snd]. rewrite part_hide, IH. reflexivity.
Qed.
Lemma split_hide p s l st : set_root (H st) (change p (split_at (hide_sess s) (map hide_sess l)) (st_root (H st))) = H (set_root st (change p (split_at s l) (st_root st))).
Proof. unfold set_root, H. cbn [st_root st_public]. f_equal. apply change_amap. apply split_amap. Qed.
Lemma partition_and_create_hide st p src b c sp : partition_and_create E (H st) p src b c sp = hides (partition_and_create E st p src b c sp).
Proof.
  unfold partition_and_create. rewrite session_hide. apply attempt_hide'. intros s. change (s_left (hide_sess s)) with (s_left s).
  change (s_tree (hide_sess s)) with (hide_tree (s_tree s)). change (st_public (H st)) with (st_public st).
  apply attempt_hide. intros b'. apply attempt_hide. intros _. apply attempt_hide. intros _. apply attempt_hide. intros adj.
  rewrite partition_hide. apply attempt_hide'. intros y. apply activated_hide. intros st1. cbn [fst snd].
  destruct (spend (s_left s) adj) as [rest|]; [|reflexivity]. change (st_public (H st1)) with (st_public st1). rewrite id_space_hide.
  destruct (get_id_space (s_tree s) (st_public st1) src) as [space|e].
  - rewrite !parts_hide. change (charged (hide_sess s) rest (Split adj)) with (hide_sess (charged s rest (Split adj))). rewrite split_hide.
    unfold hides. cbn [fst snd]. f_equal. f_equal. rewrite map_length. change (st_root (H st1)) with (amap hide_sess (st_root st1)). rewrite find_amap.
    destruct (find p (st_root st1)) as [c0|]; [|reflexivity]. cbn [option_map]. rewrite amap_parts, map_length. reflexivity.
  - rewrite !parts_hide. change (charged (hide_sess s) rest (Split adj)) with (hide_sess (charged s rest (Split adj))). rewrite split_hide. reflexivity.
Qed.
Lemma step_hide st o : step E (H st) o = hides (step E st o).
Proof.
  destruct o as [p q b|p q b|p n f|p q n c|p n|p src b col sp|p]; cbn [step].
  - apply evaluate_hide.
  - apply spend_hide.
  - apply public_hide.
  - apply view_hide.
  - apply delete_view_hide.
  - rewrite partition_and_create_hide. destruct (partition_and_create E st p src b col sp) as (st', r). reflexivity.
  - unfold stop. change (st_root (H st)) with (amap hide_sess (st_root st)). rewrite retire_amap.
    destruct (retire (e_retires_waiting E) p (st_root st)) as (t, r). reflexivity.
Qed.
Lemma run_hide : forall l st, run E (H st) l = H (run E st l).
Proof. induction l as [|o l IH]; intros st; [reflexivity|]. cbn [run]. rewrite step_hide. apply IH. Qed.
Lemma answers_hide : forall l st, answers E (H st) l = answers E st l.
Proof. induction l as [|o l IH]; intros st; [reflexivity|]. cbn [answers]. rewrite step_hide. cbn [hides fst snd]. now rewrite IH. Qed.
End Ops.
