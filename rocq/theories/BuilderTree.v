(** The data a built session starts with. *)
From Coq Require Import String Bool Arith ZArith QArith Lia Permutation List.
From Verif Require Import Prelude Budget BudgetProofs Value Rows Constraints Schema SchemaProofs Query Transform Tables TablesProofs
  Accountant AccountantProofs Session SessionSpec SessionTables SessionInv SessionViews Neighboring NeighboringSpec NeighboringProofs Builder BuilderProofs.
Import ListNotations.
Local Open Scope string_scope.
Local Open Scope nat_scope.
Notation frames l := (map (fun p => (fst p, fst (snd p))) l).
Notation changes l := (map (fun p => (fst p, snd (snd p))) l).

(** ** Domains *)

Definition field_desc (f : sfield) : coredesc := match core_field f with Ok d => d | Err _ => CInt false end.
Definition plain_dom (f : sframe) : dict coredesc := dict_of (map (fun x => (sf_name x, field_desc x)) (sd_fields f)).
Lemma plain_dom_ok f : coerced f -> from_spark_schema (sd_fields f) = Ok (plain_dom f).
Proof.
  intros C. apply coerced_supported in C as (_ & S). unfold from_spark_schema, plain_dom. rewrite (SchemaProofs.mapM_total _ (fun x => (sf_name x, field_desc x))); [reflexivity|].
  intros x I. apply S in I. unfold field_desc, core_field. destruct (sf_type x); try reflexivity. discriminate.
Qed.
Lemma dict_of_keys_aux {V} (l : list (string * V)) : forall d n, In n (dkeys (fold_left (fun d p => dset (fst p) (snd p) d) l d)) <-> In n (dkeys d) \/ In n (map fst l).
Proof.
  induction l as [|(k, v) l IH]; intros d n; cbn [fold_left map fst snd]; [cbn; tauto|]. rewrite IH, dkeys_dset. destruct (smem k (dkeys d)) eqn:M.
  - apply smem_In in M. cbn [In]. split; [tauto|]. intros [?|[<-|?]]; auto.
  - rewrite in_app_iff. cbn. tauto.
Qed.
Lemma dict_of_keys {V} (l : list (string * V)) n : In n (dkeys (dict_of l)) <-> In n (map fst l).
Proof. unfold dict_of. rewrite dict_of_keys_aux. cbn. tauto. Qed.
Lemma plain_dom_keys f n : In n (dkeys (plain_dom f)) <-> In n (columns f).
Proof. unfold plain_dom. rewrite dict_of_keys, map_map. reflexivity. Qed.
Lemma plain_dom_nodup f : NoDup (dkeys (plain_dom f)).
Proof. apply NoDup_dict_of. Qed.
Lemma plain_dom_get f x : NoDup (columns f) -> In x (sd_fields f) -> dget (sf_name x) (plain_dom f) = Some (field_desc x).
Proof.
  intros N I. unfold plain_dom. rewrite dict_of_NoDup; [|rewrite map_map; exact N]. apply In_dget; [unfold dkeys; rewrite map_map; exact N|]. apply in_map_iff. exists x. auto.
Qed.

(** ** Trees *)

Definition frame_of (dfs : dict sframe) (n : string) : sframe := match dget n dfs with Some f => f | None => {| sd_fields := []; sd_rows := [] |} end.
Definition keyed_of (dfs : dict sframe) (p : string * string) : keyed :=
  {| k_name := fst p; k_key := snd p; k_dom := plain_dom (frame_of dfs (fst p)); k_rows := frame_rows (frame_of dfs (fst p)) |}.
(** Does a table of the ID space allow null IDs? *)
Definition null_ids (dfs : dict sframe) (d : dict string) : bool :=
  existsb (fun p => match dget (snd p) (plain_dom (frame_of dfs (fst p))) with Some c => core_null c | None => false end) d.
Definition id_dom (null : bool) (key : string) (dom : dict coredesc) : dict coredesc :=
  if null then match dget key dom with Some c => dset key (core_nullable c) dom | None => dom end else dom.
Definition keyed_leaf (dfs : dict sframe) (s : string) (null : bool) (p : string * string) : vtab :=
  {| v_dom := id_dom null (snd p) (plain_dom (frame_of dfs (fst p))); v_coll := Some s; v_place := PKeys (snd p); v_rows := frame_rows (frame_of dfs (fst p)) |}.
Definition row_leaf (dfs : dict sframe) (n : string) (p : place) : vtab :=
  {| v_dom := plain_dom (frame_of dfs n); v_coll := None; v_place := p; v_rows := frame_rows (frame_of dfs n) |}.
Definition child_tree (l2 : bool) (dfs : dict sframe) (r : relation) : ident * tree :=
  match r with
  | AddRemoveRows t _ => (NamedTable t, TLeaf (row_leaf dfs t PSym))
  | AddRemoveRowsAcrossGroups t g _ _ => (NamedTable t, TLeaf (row_leaf dfs t (PGrouped g l2)))
  | AddRemoveKeys s d _ => (TableCollection s, TDict true (map (fun p => (NamedTable (fst p), TLeaf (keyed_leaf dfs s (null_ids dfs d) p))) d))
  | Conjunction _ => (NamedTable "", TDict false [])
  end.
Definition child_distance (l2 : bool) (r : relation) : distance :=
  match r with
  | AddRemoveRows _ n => DExact n
  | AddRemoveRowsAcrossGroups _ _ k m => if l2 then DRoot m k else DExact (m * k)
  | AddRemoveKeys _ _ n => DExact n
  | Conjunction _ => DExact 0
  end.
Lemma existsb_map {A B} (f : B -> bool) (g : A -> B) l : existsb f (map g l) = existsb (fun x => f (g x)) l.
Proof. induction l as [|x l IH]; [reflexivity|]. cbn. now rewrite IH. Qed.
Lemma visit_one_ok l2 dfs r names : (forall n f, dget n dfs = Some f -> coerced f) -> validate_one dfs r = Ok names -> keys_distinct r ->
  visit_one l2 dfs r = Ok (snd (child_tree l2 dfs r), child_distance l2 r).
Proof.
  intros CO V KD.
  assert (TO : forall n f, dget n dfs = Some f -> table_of dfs n = Ok (plain_dom (frame_of dfs n), frame_rows (frame_of dfs n))).
  { intros n f G. unfold table_of, frame_of. rewrite G. rewrite plain_dom_ok by (eapply CO, G). reflexivity. }
  destruct r as [t n|t g k m|s d n|l]; cbn in V; [| | |discriminate].
  - destruct (dget t dfs) as [f|] eqn:G; [|discriminate]. cbn. rewrite (TO _ _ G). reflexivity.
  - destruct (dget t dfs) as [f|] eqn:G; [|discriminate]. cbn. rewrite (TO _ _ G). cbn. destruct l2; reflexivity.
  - apply bind_ok in V as ([] & A & V). apply bind_ok in V as ([] & K & _). apply raise_if_ok in A.
    assert (IN : forall p, In p d -> exists f, dget (fst p) dfs = Some f).
    { intros p I. destruct (dget (fst p) dfs) as [f|] eqn:G; [eauto|]. apply Bool.not_true_iff_false in A. destruct A. apply existsb_exists. exists (fst p).
      split; [apply in_map; exact I|]. unfold dmem. now rewrite G. }
    cbn [visit_one]. rewrite (SchemaProofs.mapM_total _ (keyed_of dfs)). 2:{ intros p I. destruct (IN p I) as (f & G). rewrite (TO _ _ G). reflexivity. }
    cbn [bind].
    assert (COLS : forall p, In p d -> In (snd p) (columns (frame_of dfs (fst p)))).
    { cbn in KD. clear A. assert (KT : forall l seen, key_tables d l seen = Ok tt -> forall n f key, In (n, f) l -> dget n d = Some key -> In key (columns f)).
      { induction l as [|(n', f') l IH]; cbn; intros seen H n0 f key I G; [destruct I|]. destruct I as [I|I].
        - injection I as -> ->. rewrite G in H. apply bind_ok in H as ([] & H & _). apply raise_if_ok in H. apply Bool.negb_false_iff, smem_In in H. exact H.
        - destruct (dget n' d) as [key'|]; [|eapply IH; eassumption]. apply bind_ok in H as ([] & _ & H). apply bind_ok in H as (? & _ & H). apply bind_ok in H as (? & _ & H). eapply IH; eassumption. }
      intros (n0, key) I. cbn [fst snd]. destruct (IN _ I) as (f & G). cbn in G. unfold frame_of. rewrite G. eapply KT; [exact K|apply dget_In; exact G|]. apply In_dget; assumption. }
    unfold ensure_valid_schema_ark.
    rewrite (SchemaProofs.mapM_total _ (fun k => match dget (k_key k) (k_dom k) with Some c => c | None => CInt false end)).
    2:{ intros k I. apply in_map_iff in I as (p & <- & I). unfold key_desc. cbn. destruct (dget _ _) eqn:G; [reflexivity|]. apply dget_None in G. destruct G. apply plain_dom_keys, COLS, I. }
    cbn [bind]. rewrite map_map. cbn [k_key k_dom keyed_of]. rewrite existsb_map.
    assert (E : existsb (fun p : string * string => core_null match dget (snd p) (plain_dom (frame_of dfs (fst p))) with Some c => c | None => CInt false end) d = null_ids dfs d).
    { unfold null_ids. clear. induction d as [|p d IH]; [reflexivity|]. cbn. rewrite IH. now destruct (dget _ _). }
    rewrite E. cbn [child_tree child_distance snd]. unfold keyed_leaf, id_dom. destruct (null_ids dfs d); cbn [bind].
    + rewrite !map_map. reflexivity.
    + rewrite map_map. reflexivity.
Qed.
Definition child_id (r : relation) : ident :=
  match r with AddRemoveRows t _ | AddRemoveRowsAcrossGroups t _ _ _ => NamedTable t | AddRemoveKeys s _ _ => TableCollection s | Conjunction _ => NamedTable "" end.
Definition tree_of (l2 : bool) (dfs : dict sframe) (cs : list relation) : tree := TDict false (map (child_tree l2 dfs) cs).
Lemma child_tree_id l2 dfs r : fst (child_tree l2 dfs r) = child_id r.
Proof. destruct r; reflexivity. Qed.
Lemma visit_flat l2 dfs cs : (forall r, In r cs -> ~ is_conjunction r) -> (forall n f, dget n dfs = Some f -> coerced f) ->
  (forall r, In r cs -> exists names, validate_one dfs r = Ok names) -> (forall r, In r cs -> keys_distinct r) -> NoDup (map child_id cs) ->
  visit_relation l2 dfs (Conjunction cs) = Ok (tree_of l2 dfs cs, map (fun r => (child_id r, child_distance l2 r)) cs).
Proof.
  intros NC CO V KD ND. unfold visit_relation. change (flatten [Conjunction cs]) with (flatten cs ++ [])%list. rewrite app_nil_r. rewrite (flatten_id _ NC).
  assert (ID : mapM relation_id cs = Ok (map child_id cs)). { apply SchemaProofs.mapM_total. intros r I. apply NC in I. destruct r; try reflexivity. destruct I; exact Logic.I. }
  rewrite (visit_children_distinct _ _ _ _ _ ID) by exact ND.
  rewrite (SchemaProofs.mapM_total _ (fun r => (child_id r, (snd (child_tree l2 dfs r), child_distance l2 r)))).
  - cbn [bind app]. unfold tree_of. rewrite !map_map. cbn [fst snd]. rewrite (map_ext (fun r => (child_id r, snd (child_tree l2 dfs r))) (child_tree l2 dfs)); [reflexivity|].
    intros r. rewrite <- (child_tree_id l2 dfs r). now destruct (child_tree l2 dfs r).
  - intros r I. destruct (V r I) as (names & VR). unfold child_output. rewrite (visit_one_ok _ _ _ _ CO VR (KD r I)).
    apply NC in I. destruct r; try reflexivity. destruct I; exact Logic.I.
Qed.
Lemma named_tree_keys l2 dfs cs : (forall r, In r cs -> ~ is_conjunction r) -> dkeys (named (tree_of l2 dfs cs)) = flat_map tables_of cs.
Proof.
  intros NC. cbn. induction cs as [|r cs IH]; [reflexivity|]. cbn [map flat_map]. unfold dkeys in *. rewrite map_app, IH by (intros; apply NC; now right). f_equal.
  pose proof (NC r (or_introl eq_refl)) as N. destruct r as [t n|t g k m|s d n|l]; try reflexivity; [|destruct N; exact Logic.I].
  cbn. generalize (null_ids dfs d). clear. intros b. induction d as [|p d IH]; [reflexivity|]. cbn. now rewrite IH.
Qed.
Lemma tree_layout l2 dfs cs : (forall r, In r cs -> ~ is_conjunction r) -> (forall r, In r cs -> keys_distinct r) ->
  NoDup (map child_id cs) -> NoDup (flat_map tables_of cs) -> layout (tree_of l2 dfs cs).
Proof.
  intros NC KD NI NT. constructor.
  - unfold ikeys. rewrite map_map. erewrite map_ext; [exact NI|]. intros r. apply child_tree_id.
  - intros e I. apply in_map_iff in I as (r & <- & I). pose proof (NC r I) as N. pose proof (KD r I) as K. destruct r as [t n|t g k m|s d n|l]; cbn; [split; reflexivity|split; reflexivity| |destruct N; exact Logic.I].
    split.
    + unfold ikeys. rewrite map_map. cbn. cbn in K. clear - K. induction d as [|(n, c) d IH]; [constructor|]. cbn in *. inversion K; subst. constructor; [|apply IH; assumption].
      intros H. apply in_map_iff in H as ((n', c') & E & I). cbn in E. injection E as ->. apply H1. apply in_map_iff. exists (n, c'). auto.
    + intros e J. apply in_map_iff in J as (p & <- & J). cbn. split; [reflexivity|discriminate].
  - pose proof (named_tree_keys l2 dfs cs NC) as E. unfold tree_of in E. rewrite E. exact NT.
Qed.
Lemma child_ids l : NoDup (map fst l) -> NoDup (map child_id (children_of l)).
Proof.
  intros N. pose proof (NoDup_map_inv _ _ N) as NL. unfold children_of. rewrite map_app. apply nodup_append.
  - rewrite map_flat_map. apply nodup_flat_map; [exact NL| |].
    + intros (n, c) _. destruct c; cbn; repeat constructor; intros [].
    + intros (n, c) (m, c') b I J A B. assert (b = NamedTable n) by (destruct c; cbn in A; intuition congruence). assert (b = NamedTable m) by (destruct c'; cbn in B; intuition congruence).
      assert (n = m) by congruence. subst m. f_equal. eapply name_once; eassumption.
  - rewrite map_map. cbn. pose proof (spaces_nodup _ N) as S. clear - S. induction (spaces_of l) as [|(s, d) r IH]; [constructor|]. cbn in *. inversion S; subst. constructor; [|auto].
    intros H. apply in_map_iff in H as ((s', d') & E & I). cbn in E. injection E as ->. apply H1. apply in_map_iff. exists (s, d'). auto.
  - intros k A B. apply in_map_iff in A as (r & <- & A). apply in_flat_map in A as ((n, c) & _ & A). apply in_map_iff in B as (r' & E & B). apply in_map_iff in B as ((s, d) & <- & B).
    unfold row_relation in A. destruct c; cbn in A; try contradiction; destruct A as [<-|[]]; cbn in E; discriminate.
Qed.
Lemma children_keys_distinct l : NoDup (map fst l) -> forall r, In r (children_of l) -> keys_distinct r.
Proof.
  intros N r I. apply in_app_iff in I as [I|I].
  - apply in_flat_map in I as ((n, c) & _ & J). unfold row_relation in J. destruct c; cbn in J; try contradiction; destruct J as [<-|[]]; exact Logic.I.
  - apply in_map_iff in I as ((s, d) & <- & I). cbn. eapply spaces_entry; eassumption.
Qed.

(** ** Built sessions *)

(** The metric of a table with a protected change. *)
Definition change_place (l2 : bool) (c : change) : place :=
  match c with AddMaxRows _ => PSym | AddMaxRowsInMaxGroups g _ _ => PGrouped g l2 | AddRowsWithID i _ => PKeys i end.
Definition change_space (c : change) : option string := match c with AddRowsWithID _ s => Some s | _ => None end.
(** Are null IDs allowed in some table of an ID space? *)
Definition space_nullable (l : dict (sframe * change)) (s : string) : bool :=
  existsb (fun p => match snd (snd p) with
                    | AddRowsWithID i s' => String.eqb s s' && match dget i (plain_dom (fst (snd p))) with Some c => core_null c | None => false end
                    | _ => false
                    end) l.
Definition source_table (l2 : bool) (l : dict (sframe * change)) (f : sframe) (c : change) : vtab :=
  {| v_dom := match c with AddRowsWithID i s => id_dom (space_nullable l s) i (plain_dom f) | _ => plain_dom f end;
     v_coll := change_space c; v_place := change_place l2 c; v_rows := frame_rows f |}.
Definition tree_of_sources (l2 : bool) (l : dict (sframe * change)) : tree := tree_of l2 (frames l) (children_of (changes l)).
Lemma null_ids_space (l : dict (sframe * change)) s : NoDup (dkeys l) -> null_ids (frames l) (flat_map (in_space s) (changes l)) = space_nullable l s.
Proof.
  intros N. assert (NC : NoDup (map fst (changes l))) by (rewrite keys_changes; exact N). apply Bool.eq_iff_eq_true. unfold null_ids, space_nullable. rewrite !existsb_exists. split.
  - intros ((n, i) & I & H). apply in_space_in, in_changes in I as (f & I). exists (n, (f, AddRowsWithID i s)). split; [exact I|]. cbn in *. rewrite String.eqb_refl. cbn.
    unfold frame_of in H. rewrite dget_frames, (In_dget _ _ _ N I) in H. exact H.
  - intros ((n, (f, c)) & I & H). cbn in H. destruct c as [| |i s']; try discriminate. apply andb_true_iff in H as (E & H). apply String.eqb_eq in E. subst s'. exists (n, i). split; [apply in_space_in, in_changes; eauto|]. cbn.
    unfold frame_of. rewrite dget_frames, (In_dget _ _ _ N I). exact H.
Qed.
Lemma named_source l2 (l : dict (sframe * change)) n f c : NoDup (dkeys l) -> In (n, (f, c)) l -> In (n, source_table l2 l f c) (named (tree_of_sources l2 l)).
Proof.
  intros N I. assert (NC : NoDup (map fst (changes l))) by (rewrite keys_changes; exact N).
  assert (FO : frame_of (frames l) n = f) by (unfold frame_of; now rewrite dget_frames, (In_dget _ _ _ N I)).
  unfold tree_of_sources, tree_of. cbn [named]. rewrite flat_map_concat_map, map_map, <- flat_map_concat_map. apply in_flat_map. assert (IC : In (n, c) (changes l)) by (apply in_changes; eauto). destruct c as [k|g k m|i s].
  - exists (AddRemoveRows n k). split; [apply in_app_iff; left; apply in_flat_map; eexists; split; [exact IC|now left]|]. left. unfold row_leaf. rewrite FO. reflexivity.
  - exists (AddRemoveRowsAcrossGroups n g k m). split; [apply in_app_iff; left; apply in_flat_map; eexists; split; [exact IC|now left]|]. left. unfold row_leaf. rewrite FO. reflexivity.
  - exists (AddRemoveKeys s (flat_map (in_space s) (changes l)) 1). split.
    + apply in_app_iff. right. apply in_map_iff. exists (s, flat_map (in_space s) (changes l)). split; [reflexivity|]. eapply spaces_in; eassumption.
    + cbn. apply in_flat_map. exists (NamedTable n, TLeaf (keyed_leaf (frames l) s (null_ids (frames l) (flat_map (in_space s) (changes l))) (n, i))). split.
      * apply in_map_iff. exists (n, i). split; [reflexivity|]. apply in_space_in, IC.
      * left. unfold keyed_leaf. cbn. rewrite FO, (null_ids_space _ _ N). reflexivity.
Qed.
Lemma sources_layout l2 (l : dict (sframe * change)) : NoDup (dkeys l) -> layout (tree_of_sources l2 l).
Proof.
  intros N. assert (NC : NoDup (map fst (changes l))) by (rewrite keys_changes; exact N). apply tree_layout; [apply children_flat|apply children_keys_distinct, NC|apply child_ids, NC|apply children_distinct_tables, NC].
Qed.
Lemma named_sources l2 (l : dict (sframe * change)) n : NoDup (dkeys l) -> dget n (named (tree_of_sources l2 l)) = option_map (fun x => source_table l2 l (fst x) (snd x)) (dget n l).
Proof.
  intros N. pose proof (layout_nodup _ (sources_layout l2 l N)) as ND. assert (NC : NoDup (map fst (changes l))) by (rewrite keys_changes; exact N).
  destruct (dget n l) as [(f, c)|] eqn:G; cbn [option_map fst snd].
  - apply In_dget; [exact ND|]. apply named_source; [exact N|]. apply dget_In, G.
  - apply dget_None. intros I. unfold tree_of_sources in I. rewrite named_tree_keys in I by apply children_flat. apply children_tables in I; [|exact NC]. rewrite keys_changes in I. apply dget_None in G. contradiction.
Qed.
