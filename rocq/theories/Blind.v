(** Hiding the rows commutes with everything a session does. *)
From Coq Require Import String Bool Arith ZArith QArith Lia Permutation List.
From Verif Require Import Prelude Budget Value Rows Constraints Schema Query SchemaProofs Transform Tables TablesProofs
  Accountant AccountantProofs Session SessionSpec SessionMoney BlindSpec.
Import ListNotations.
Local Open Scope string_scope.
Local Open Scope nat_scope.

Definition rmap {A B} (f : A -> B) (r : res A) : res B := match r with Ok a => Ok (f a) | Err e => Err e end.
Lemma rmap_ok {A B} (f : A -> B) a : rmap f (Ok a) = Ok (f a). Proof. reflexivity. Qed.
Lemma rmap_bind {A B C} (f : B -> C) (r : res A) (k : A -> res B) : rmap f (bind r k) = bind r (fun a => rmap f (k a)).
Proof. destruct r; reflexivity. Qed.
Lemma bind_rmap {A B C} (f : A -> B) (r : res A) (k : B -> res C) : bind (rmap f r) k = bind r (fun a => k (f a)).
Proof. destruct r; reflexivity. Qed.
Lemma bind_ext {A B} (r : res A) (k k' : A -> res B) : (forall a, k a = k' a) -> bind r k = bind r k'.
Proof. intros H. destruct r; [apply H|reflexivity]. Qed.

(** ** Queries *)

Definition hide2 (x : vtab * list constraint) : vtab * list constraint := (hide (fst x), snd x).

Section Visit.
Variable W : world.
Variable l2 : bool.
Variable cat : catalog.

Ltac go :=
  cbn [v_dom v_coll v_place v_rows fst snd hide];
  repeat match goal with
  | |- ?x = ?x => reflexivity
  | |- bind ?r _ = rmap _ (bind ?r _) => rewrite rmap_bind; apply bind_ext; intros ?
  end; cbn [rmap hide2 hide fst snd v_dom v_coll v_place v_rows]; try reflexivity.

Lemma enforce_hide RO KO c u b t : enforce RO KO c u b {| t_place := v_place t; t_rows := [] |}
  = rmap (fun y => {| t_place := t_place y; t_rows := [] |}) (enforce RO KO c u b {| t_place := v_place t; t_rows := v_rows t |}).
Proof.
  unfold enforce. cbn [t_place t_rows]. destruct c, (v_place t); cbn; try reflexivity; destruct u; try reflexivity.
  all: destruct (_ =? _)%string; reflexivity.
Qed.
Lemma visit_hide data : forall q, visit W l2 cat (hide_all data) q = rmap hide2 (visit W l2 cat data q).
Proof.
  assert (U : forall r (f : vtab * list constraint -> res (vtab * list constraint)),
    (forall x, f (hide2 x) = rmap hide2 (f x)) -> bind (rmap hide2 r) f = rmap hide2 (bind r f)).
  { intros r f H. rewrite bind_rmap, rmap_bind. apply bind_ext. exact H. }
  induction q; cbn [visit]; try reflexivity.
  all: try (match goal with H : visit _ _ _ _ ?q = _ |- context [visit _ _ _ (hide_all _) ?q] => rewrite H end).
  all: try (apply U; intros (t, cs); unfold hide2 at 1; cbn [fst snd]).
  - unfold visit_source, hide_all. rewrite dget_map_val. destruct (dget _ data); [|reflexivity]. cbn [option_map].
    destruct (dget _ (cat_private cat)) as [(s, cs)|]; reflexivity.
  - unfold visit_rename. go.
  - unfold visit_filter. go.
  - unfold visit_select. go.
  - unfold visit_map. go.
  - unfold visit_flat_map. go.
  - unfold visit_flat_map_by_id. go. destruct (v_place t); try reflexivity. destruct (dget idc (v_dom t)); [|reflexivity]. go.
  - rewrite IHq2, bind_rmap, rmap_bind. apply bind_ext. intros (l, lcs). rewrite bind_rmap, rmap_bind. apply bind_ext. intros (r, rcs).
    unfold hide2 at 1 2. cbn [fst snd]. unfold visit_join_private. go.
    destruct (v_place l), (v_place r); try reflexivity.
    + rewrite !rmap_bind. destruct (negb (idc =? idc0)%string); [reflexivity|]. cbn [raise_if bind]. destruct (negb (smem idc _)); [reflexivity|]. cbn [raise_if bind]. go.
    + destruct tl as [sl|], tr as [sr|]; try reflexivity. cbn [bind]. go. destruct sl; reflexivity.
  - unfold visit_join_public. go. destruct (negb (in_collection (v_place t)) && String.eqb how "left"); reflexivity.
  - unfold visit_replace_null. go.
  - unfold visit_replace_inf. go.
  - unfold visit_drop_null. go.
  - unfold visit_drop_inf. go.
  - unfold visit_enforce. go. rewrite (enforce_hide _ _ _ _ _ t), bind_rmap, rmap_bind. apply bind_ext. reflexivity.
Qed.
Lemma build_hide data q : build_transformation W l2 cat (hide_all data) q = rmap hide2 (build_transformation W l2 cat data q).
Proof.
  unfold build_transformation. rewrite rmap_bind. apply bind_ext. intros s. rewrite visit_hide, bind_rmap, rmap_bind. apply bind_ext. intros x.
  rewrite rmap_bind. apply bind_ext. reflexivity.
Qed.
End Visit.

(** ** Trees of tables *)

Fixpoint tree_ind' (P : tree -> Prop) (HL : forall t, P (TLeaf t))
    (HD : forall ark kids, (forall k x, In (k, x) kids -> P x) -> P (TDict ark kids)) (x : tree) : P x.
Proof.
  destruct x as [t|ark kids]; [apply HL|]. apply HD. induction kids as [|(k0, x0) kids IH]; [intros k x []|].
  intros k x [E|I]; [|exact (IH k x I)]. injection E as _ <-. apply tree_ind'; assumption.
Defined.
Notation hide_kids := (map (fun p : ident * tree => (fst p, hide_tree (snd p)))).

Lemma iget_map {A B} (f : A -> B) k : forall l, iget k (map (fun p => (fst p, f (snd p))) l) = option_map f (iget k l).
Proof. induction l as [|(k', a) l IH]; cbn; [reflexivity|]. destruct (ident_eqb k k'); [reflexivity|exact IH]. Qed.
Lemma iset_map {A B} (f : A -> B) k a : forall l, iset k (f a) (map (fun p => (fst p, f (snd p))) l) = map (fun p => (fst p, f (snd p))) (iset k a l).
Proof. induction l as [|(k', a') l IH]; cbn; [reflexivity|]. destruct (ident_eqb k k'); cbn; [reflexivity|now rewrite IH]. Qed.
Lemma ikeys_map {A B} (f : A -> B) l : ikeys (map (fun p => (fst p, f (snd p))) l) = ikeys l.
Proof. unfold ikeys. rewrite map_map. apply map_ext. reflexivity. Qed.

Lemma domain_hide : forall x, domain_of (hide_tree x) = domain_of x.
Proof.
  apply tree_ind'; [reflexivity|]. intros ark kids IH. cbn [hide_tree domain_of]. f_equal. rewrite map_map. apply map_ext_in.
  intros (k, y) I. cbn [fst snd]. now rewrite (IH k y I).
Qed.
Lemma key_column_hide x : key_column (hide_tree x) = key_column x. Proof. destruct x; reflexivity. Qed.
Lemma metric_hide : forall x, metric_of (hide_tree x) = metric_of x.
Proof.
  apply tree_ind'; [reflexivity|]. intros ark kids IH. cbn [hide_tree metric_of]. destruct ark; f_equal; rewrite map_map; apply map_ext_in.
  - intros (k, y) I. cbn [fst snd]. now rewrite key_column_hide.
  - intros (k, y) I. cbn [fst snd]. now rewrite (IH k y I).
Qed.
Lemma temps_hide : forall x, temp_ids (hide_tree x) = temp_ids x.
Proof.
  apply tree_ind'; [reflexivity|]. intros ark kids IH. cbn [hide_tree temp_ids]. induction kids as [|(k, y) kids IH2]; [reflexivity|].
  cbn [map flat_map fst snd]. rewrite (IH k y (or_introl eq_refl)), IH2; [reflexivity|]. intros k' y' I. apply (IH k' y'). now right.
Qed.
Lemma fresh_hide x : fresh (hide_tree x) = fresh x. Proof. unfold fresh. now rewrite temps_hide. Qed.
Lemma get_hide : forall r x, get_at (hide_tree x) r = rmap hide_tree (get_at x r).
Proof.
  induction r as [|k r IH]; intros [t|ark kids]; cbn [get_at hide_tree]; try reflexivity.
  rewrite iget_map. destruct (iget k kids) as [y|]; cbn [option_map]; [apply IH|reflexivity].
Qed.
Lemma leaf_hide x : leaf (hide_tree x) = rmap hide (leaf x). Proof. destruct x; reflexivity. Qed.
Lemma update_hide f g : (forall x, g (hide_tree x) = rmap hide_tree (f x)) ->
  forall r x, update_at r g (hide_tree x) = rmap hide_tree (update_at r f x).
Proof.
  intros H. induction r as [|k r IH]; intros x; cbn [update_at]; [apply H|]. destruct x as [t|ark kids]; cbn [hide_tree]; [reflexivity|].
  rewrite iget_map. destruct (iget k kids) as [y|]; cbn [option_map]; [|reflexivity].
  rewrite IH, bind_rmap, rmap_bind. apply bind_ext. intros z. rewrite rmap_bind. apply bind_ext. intros _. cbn [rmap hide_tree]. now rewrite iset_map.
Qed.
Lemma add_hide k y x : add_entry k (hide_tree y) (hide_tree x) = rmap hide_tree (add_entry k y x).
Proof.
  destruct x as [t|ark kids]; cbn [add_entry hide_tree]; [reflexivity|]. rewrite ikeys_map, rmap_bind. apply bind_ext. intros _.
  rewrite rmap_bind. replace (has_key (hide_tree y)) with (has_key y) by (destruct y; reflexivity). apply bind_ext. intros _.
  cbn [rmap hide_tree]. now rewrite map_app.
Qed.
Lemma rename_hide x r new : rename_table (hide_tree x) r new = rmap hide_tree (rename_table x r new).
Proof.
  unfold rename_table. rewrite rmap_bind. apply bind_ext. intros k. rewrite rmap_bind. apply bind_ext. intros p. rewrite get_hide, bind_rmap, rmap_bind.
  apply bind_ext. intros y. apply update_hide. intros z. apply add_hide.
Qed.
Lemma delete_hide e sh x r : (forall l, sh (hide_kids l) = hide_kids (sh l)) ->
  delete_table e sh (hide_tree x) r = rmap hide_tree (delete_table e sh x r).
Proof.
  intros S. unfold delete_table. rewrite rmap_bind. apply bind_ext. intros k. rewrite rmap_bind. apply bind_ext. intros p. apply update_hide.
  intros [t|ark kids]; cbn [hide_tree]; [reflexivity|].
  assert (F : forall (P : ident -> bool) (l : list (ident * tree)), filter (fun e => P (fst e)) (hide_kids l) = hide_kids (filter (fun e => P (fst e)) l)).
  { intros P. induction l as [|(k', y) l IH]; [reflexivity|]. cbn [map filter fst snd]. destruct (P k'); cbn [map fst snd]; now rewrite IH. }
  rewrite (F (fun i => negb (is_temporary i) && negb (ident_eqb k i))), map_length, rmap_bind. apply bind_ext. intros _. cbn [rmap hide_tree]. now rewrite S.
Qed.

(** ** What a session says about its tables *)

Lemma sources_hide x : private_sources (hide_tree x) = private_sources x.
Proof. unfold private_sources. now rewrite domain_hide. Qed.
Lemma table_hide x n : table_named (hide_tree x) n = rmap hide (table_named x n).
Proof.
  unfold table_named. rewrite domain_hide. destruct (find_reference n (domain_of x)) as [r|]; [|reflexivity].
  rewrite get_hide, bind_rmap, rmap_bind. apply bind_ext. intros y. apply leaf_hide.
Qed.
Lemma get_schema_hide x pub n : get_schema (hide_tree x) pub n = get_schema x pub n.
Proof. unfold get_schema. now rewrite domain_hide. Qed.
Lemma private_ref_hide x pub n : private_ref (hide_tree x) pub n = private_ref x pub n.
Proof. unfold private_ref. now rewrite domain_hide. Qed.
Lemma grouping_hide x pub n : get_grouping_column (hide_tree x) pub n = get_grouping_column x pub n.
Proof. unfold get_grouping_column. now rewrite private_ref_hide, metric_hide. Qed.
Lemma id_column_hide x pub n : get_id_column (hide_tree x) pub n = get_id_column x pub n.
Proof. unfold get_id_column. now rewrite private_ref_hide, metric_hide. Qed.
Lemma id_space_hide x pub n : get_id_space (hide_tree x) pub n = get_id_space x pub n.
Proof. unfold get_id_space. now rewrite private_ref_hide. Qed.
Lemma catalog_private_hide x pub cons : forall names acc, catalog_private (hide_tree x) pub cons names acc = catalog_private x pub cons names acc.
Proof.
  induction names as [|n names IH]; intros acc; [reflexivity|]. cbn [catalog_private]. rewrite get_schema_hide, grouping_hide, id_column_hide, id_space_hide.
  apply bind_ext. intros c. apply bind_ext. intros cs. apply bind_ext. intros g. apply bind_ext. intros i. apply bind_ext. intros sp.
  apply bind_ext. intros _. apply bind_ext. intros s. apply IH.
Qed.
Lemma catalog_hide x pub cons : catalog_of (hide_tree x) pub cons = catalog_of x pub cons.
Proof. unfold catalog_of. rewrite sources_hide. apply bind_ext. intros names. now rewrite catalog_private_hide. Qed.
Lemma mapM_rmap {A B C} (f : A -> res B) (g : A -> res C) (h : B -> C) : (forall a, g a = rmap h (f a)) ->
  forall l, mapM g l = rmap (map h) (mapM f l).
Proof.
  intros H. induction l as [|a l IH]; [reflexivity|]. cbn [mapM]. rewrite H, bind_rmap, rmap_bind. apply bind_ext. intros b.
  rewrite IH, bind_rmap, rmap_bind. apply bind_ext. reflexivity.
Qed.
Lemma data_hide x : data_of (hide_tree x) = rmap hide_all (data_of x).
Proof.
  unfold data_of. rewrite sources_hide, rmap_bind. apply bind_ext. intros names. apply mapM_rmap. intros n. rewrite table_hide, bind_rmap, rmap_bind.
  apply bind_ext. reflexivity.
Qed.
