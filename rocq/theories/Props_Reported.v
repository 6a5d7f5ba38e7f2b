(** More about C07, C34, C36 and C41: how edges compare, which names of types there are, and
    which columns a session reports for the tables it was given. *)
From Coq Require Import String Ascii Bool Arith ZArith QArith Lia List.
From Verif Require Import Prelude Budget BudgetProofs Value Rows Constraints ConstraintsSpec Schema SchemaProofs Query Transform Tables TablesProofs Accountant AccountantProofs Session SessionSpec SessionTables
  Neighboring NeighboringSpec NeighboringProofs Builder BuilderProofs BuilderTree BuilderBuild BuilderCalls BuilderSpec BuilderNeighbours Props_Session Props_Schema Props_Builder.
From Verif Require Binning BinEdges BinEdgesProofs QueryBuilder.
Import ListNotations.
Local Open Scope string_scope.
Local Open Scope nat_scope.

(** ** C07: the order of edges *)

(** Microseconds since the beginning of the year 0, in a calendar in which all months have
    31 days. *)
Definition moment (y m d h mi s us : Z) : Z := ((((((y * 12 + (m - 1)) * 31 + (d - 1)) * 24 + h) * 60 + mi) * 60 + s) * 1000000 + us)%Z.
(** Strings in the order of their first differing character, prefixes first. *)
Inductive before : string -> string -> Prop :=
| BeforeEnd c s : before "" (String c s)
| BeforeChar c d s t : nat_of_ascii c < nat_of_ascii d -> before (String c s) (String d t)
| BeforeNext c s t : before s t -> before (String c s) (String c t).
(** Edges of one kind are ordered as numbers, as strings, by day or by time. *)
Theorem C07_edge_order :
  (forall a b, BinEdges.edge_lt (BinEdges.EInt a) (BinEdges.EInt b) = true <-> (a < b)%Z)
  /\ (forall a b, BinEdges.edge_lt (BinEdges.EFloat (FX (XFin a))) (BinEdges.EFloat (FX (XFin b))) = true <-> (a < b)%Q)
  /\ (forall a, BinEdges.edge_lt (BinEdges.EFloat (FX XNInf)) (BinEdges.EFloat (FX (XFin a))) = true
             /\ BinEdges.edge_lt (BinEdges.EFloat (FX (XFin a))) (BinEdges.EFloat (FX XPInf)) = true)
  /\ (forall e, BinEdges.edge_lt (BinEdges.EFloat FNaN) e = false /\ BinEdges.edge_lt e (BinEdges.EFloat FNaN) = false)
  /\ (forall a b, BinEdges.edge_lt (BinEdges.EStr a) (BinEdges.EStr b) = true <-> before a b)
  /\ (forall y m d y' m' d', BinEdgesProofs.valid_edge (BinEdges.EDate y m d) -> BinEdgesProofs.valid_edge (BinEdges.EDate y' m' d') ->
       (BinEdges.edge_lt (BinEdges.EDate y m d) (BinEdges.EDate y' m' d') = true <-> (moment y m d 0 0 0 0 < moment y' m' d' 0 0 0 0)%Z))
  /\ (forall y m d h mi s us y' m' d' h' mi' s' us',
       BinEdgesProofs.valid_edge (BinEdges.ETime y m d h mi s us) -> BinEdgesProofs.valid_edge (BinEdges.ETime y' m' d' h' mi' s' us') ->
       (BinEdges.edge_lt (BinEdges.ETime y m d h mi s us) (BinEdges.ETime y' m' d' h' mi' s' us') = true
        <-> (moment y m d h mi s us < moment y' m' d' h' mi' s' us')%Z)).
Proof.
  assert (LS : forall a b, BinEdges.lex_lt (BinEdges.str_codes a) (BinEdges.str_codes b) = true <-> before a b).
  { induction a as [|c a IH]; intros [|d b]; cbn [BinEdges.str_codes BinEdges.lex_lt].
    - split; [discriminate|intros H; inversion H].
    - split; intros; [constructor|reflexivity].
    - split; [discriminate|intros H; inversion H].
    - rewrite orb_true_iff, andb_true_iff, Z.ltb_lt, Z.eqb_eq, IH. split.
      + intros [H|(E & H)]; [apply BeforeChar; lia|]. apply Nat2Z.inj in E. assert (c = d) as -> by (rewrite <- (ascii_nat_embedding c), <- (ascii_nat_embedding d), E; reflexivity). now apply BeforeNext.
      + intros H. inversion H; subst; [left; lia|right; auto]. }
  assert (LC : forall x y a b, BinEdges.lex_lt (x :: a) (y :: b) = true <-> (x < y)%Z \/ (x = y /\ BinEdges.lex_lt a b = true)).
  { intros. cbn [BinEdges.lex_lt]. rewrite orb_true_iff, andb_true_iff, Z.ltb_lt, Z.eqb_eq. reflexivity. }
  assert (LN : BinEdges.lex_lt [] [] = true <-> False) by (cbn; split; [discriminate|tauto]).
  split; [|split; [|split; [|split; [|split; [|split]]]]].
  - intros a b. unfold BinEdges.edge_lt. cbn [BinEdges.is_number andb BinEdges.number]. rewrite xltb_iff. cbn [xle]. rewrite <- Zle_Qle. lia.
  - intros a b. unfold BinEdges.edge_lt. cbn [BinEdges.is_number andb BinEdges.number]. rewrite xltb_iff. cbn [xle]. split; [apply Qnot_le_lt|apply Qlt_not_le].
  - intros a. split; reflexivity.
  - intros e. split; destruct e as [| [[]|]| | |]; reflexivity.
  - intros a b. unfold BinEdges.edge_lt. cbn [BinEdges.is_number andb BinEdges.is_nan negb BinEdges.fields]. rewrite LC, LS. split; [intros [H|(_ & H)]; [lia|exact H]|auto].
  - intros y m d y' m' d' V V'. unfold BinEdges.edge_lt. cbn [BinEdges.is_number andb BinEdges.is_nan negb BinEdges.fields]. rewrite !LC, LN. cbn [BinEdgesProofs.valid_edge] in V, V'. unfold moment. lia.
  - intros y m d h mi s us y' m' d' h' mi' s' us' V V'. unfold BinEdges.edge_lt. cbn [BinEdges.is_number andb BinEdges.is_nan negb BinEdges.fields]. rewrite !LC, LN. cbn [BinEdgesProofs.valid_edge] in V, V'. unfold moment. lia.
Qed.
Print Assumptions C07_edge_order.
Example C07_edge_order_case :
  BinEdgesProofs.valid_edge (BinEdges.ETime 2024 2 29 23 59 59 999999) /\ BinEdgesProofs.valid_edge (BinEdges.ETime 2024 3 1 0 0 0 0)
  /\ BinEdges.edge_lt (BinEdges.ETime 2024 2 29 23 59 59 999999) (BinEdges.ETime 2024 3 1 0 0 0 0) = true /\ before "ab" "b" /\ before "b" "ba".
Proof.
  cbn [BinEdgesProofs.valid_edge]. split; [lia|]. split; [lia|]. split; [reflexivity|]. split; [apply BeforeChar; vm_compute; lia|]. apply BeforeNext, BeforeEnd.
Qed.

(** ** C36: names of types *)

(** The names that stand for types in a schema, and nothing else does. *)
Definition type_names : list (string * ctype) :=
  [("INTEGER", INTEGER); ("DECIMAL", DECIMAL); ("VARCHAR", VARCHAR); ("DATE", DATE); ("TIMESTAMP", TIMESTAMP)].
Theorem C36_names_of_types : forall cols dn dnan dinf c name,
  In (c, RName name) cols ->
  (forall s, Schema_init cols None None None dn dnan dinf = Ok s -> NoDup (dkeys cols) ->
     exists d, dget c (sc_cols s) = Some d /\ In (name, cd_type d) type_names)
  /\ (~ In name (map fst type_names) -> is_ok (Schema_init cols None None None dn dnan dinf) = false).
Proof.
  intros cols dn dnan dinf c name I.
  assert (N : forall t, In (ctype_name t, t) type_names) by (intros []; cbn; tauto). split.
  - intros s H ND. destruct (C36_schema_contents _ _ _ _ _ _ _ _ H) as (F & _). clear H. revert I ND. induction F as [|p q l k (E & D) F IH]; intros I ND; [contradiction|]. cbn [dkeys map] in ND. inversion ND as [|? ? ND1 ND2]. subst.
    destruct q as (cq & d). cbn [fst snd] in *. subst cq. cbn [dget]. destruct I as [->|I].
    + cbn [fst snd described_as] in *. rewrite String.eqb_refl. exists d. split; [reflexivity|]. destruct D as (D & _). rewrite <- D. apply N.
    + destruct (String.eqb c (fst p)) eqn:Q; [|exact (IH I ND2)]. apply String.eqb_eq in Q. exfalso. apply ND1. subst c. apply (in_map fst) in I. exact I.
  - intros NI. apply not_true_iff_false. intros H. apply C36_schema_construction in H as (_ & _ & _ & K). destruct (K c _ I) as (t & E). cbn [raw_name] in E. apply NI. rewrite E. apply (in_map fst _ _ (N t)).
Qed.
Print Assumptions C36_names_of_types.
Example C36_names_of_types_case : exists s, Schema_init [("a", RName "DATE")] None None None true false true = Ok s /\ NoDup (dkeys [("a", RName "DATE")])
  /\ is_ok (Schema_init [("a", RName "date")] None None None true false true) = false.
Proof. eexists. split; [reflexivity|]. split; [repeat constructor; intros []|reflexivity]. Qed.

(** ** C41: back to Spark *)

(** The Spark schema made from the schema of a loaded table is the one the table has. *)
Theorem C41_loaded_spark_schema : forall d d', NoDup (map sf_name (sd_fields d)) -> coerce_spark_schema_or_fail d = Ok d' ->
  exists cols s, spark_schema_to_analytics_columns (sd_fields d') = Ok cols /\ mk_schema cols None None None = Ok s /\ analytics_to_spark_schema s = sd_fields d'.
Proof.
  intros d d' ND H. rewrite coerce_ok in H by exact ND.
  destruct (smem "" (map sf_name (sd_fields d))) eqn:E1; [discriminate|]. destruct (forallb (fun f => supported (sf_type f)) (sd_fields d)) eqn:E2; [|discriminate]. cbn [orb negb] in H. injection H as <-. cbn [sd_fields]. apply smem_false in E1.
  set (col := fun f => (sf_name f, {| cd_type := match sf_type f with LongT | IntegerT => INTEGER | DoubleT | FloatT => DECIMAL | StringT => VARCHAR | DateT => DATE | _ => TIMESTAMP end;
                      cd_null := sf_nullable f; cd_nan := match sf_type f with DoubleT | FloatT => true | _ => false end; cd_inf := match sf_type f with DoubleT | FloatT => true | _ => false end |})).
  assert (X : spark_schema_to_analytics_columns (map widen_field (sd_fields d)) = Ok (map col (map widen_field (sd_fields d)))).
  { unfold spark_schema_to_analytics_columns. rewrite (SchemaProofs.mapM_total _ col).
    - cbn [bind]. rewrite dict_of_NoDup; [reflexivity|]. rewrite !map_map. exact ND.
    - intros f I. apply in_map_iff in I as (g & <- & I). rewrite forallb_forall in E2. specialize (E2 g I). unfold col. change (sf_type (widen_field g)) with (widen (sf_type g)). destruct (sf_type g); try discriminate; reflexivity. }
  eexists. exists {| sc_cols := map col (map widen_field (sd_fields d)); sc_group := None; sc_id := None; sc_space := None |}. split; [exact X|]. split.
  - apply mk_schema_ok. split; [unfold dkeys; rewrite !map_map; exact E1|]. split; [discriminate|]. split; [discriminate|reflexivity].
  - unfold analytics_to_spark_schema. cbn [sc_cols]. rewrite !map_map. apply map_ext_in. intros g I. rewrite forallb_forall in E2. specialize (E2 g I). unfold col. cbn [fst snd cd_type cd_null]. change (sf_type (widen_field g)) with (widen (sf_type g)).
    destruct g as [n [] b]; try discriminate; reflexivity.
Qed.
Print Assumptions C41_loaded_spark_schema.

(** ** C34: the columns a session reports *)

(** The documented type of a Spark column. *)
Definition documented (t : sparktype) : option ctype :=
  match t with
  | IntegerT | LongT => Some INTEGER | FloatT | DoubleT => Some DECIMAL | StringT => Some VARCHAR | DateT => Some DATE | TimestampT => Some TIMESTAMP
  | OtherT _ => None
  end.
(** Some table of the ID space has IDs that may be null. *)
Definition null_ids_in (l : list bcall) (s : string) : Prop :=
  exists n f i x, In (n, (f, AddRowsWithID i s)) (privates l) /\ In x (sd_fields f) /\ sf_name x = i /\ sf_nullable x = true.
(** For each private table, the columns of the frame in their order, with documented types.
    DECIMAL columns, and no others, may hold NaN and infinities.  A column may hold nulls if
    Spark says so; an ID column also if that is so anywhere in its ID space. *)
Theorem C34_reported_columns : forall E l o, ~ In Build l -> build_by E l = Ok o ->
  (forall n f c, In (n, (f, c)) (privates l) -> NoDup (map sf_name (sd_fields f))) ->
  forall n f c pub, In (n, (f, c)) (privates l) ->
  exists cols, get_schema (s_tree (root o)) pub n = Ok cols
    /\ Forall2 (fun x p => fst p = sf_name x /\ documented (sf_type x) = Some (cd_type (snd p))
                  /\ (cd_nan (snd p) = true <-> cd_type (snd p) = DECIMAL) /\ (cd_inf (snd p) = true <-> cd_type (snd p) = DECIMAL)
                  /\ (cd_null (snd p) = true <-> sf_nullable x = true \/ exists s, c = AddRowsWithID (sf_name x) s /\ null_ids_in l s))
         (sd_fields f) cols.
Proof.
  intros E l o NB H U. pose proof (proj1 (build_by_iff E l NB) (ex_intro _ o H)) as [_ _ BN _ _ BF _ _ _]. destruct (nodup_append_inv _ _ BN) as (N & _ & _). rewrite <- stored_keys in N.
  destruct (build_by_result E l o NB H) as (x & names & B & NN & IN & PS & ->).
  assert (ST : forall n f c, In (n, (f, c)) (privates l) -> sd_fields (stored f) = map widen_field (sd_fields f) /\ forall x, In x (sd_fields f) -> supported (sf_type x) = true).
  { intros n f c I. destruct (BF n f c I) as (_ & (f' & R) & _). unfold stored. rewrite R. rewrite coerce_ok in R by (eapply U, I).
    destruct (smem "" _); [discriminate|]. destruct (forallb (fun f => supported (sf_type f)) (sd_fields f)) eqn:E2; [|discriminate]. cbn [orb negb] in R. injection R as <-. split; [reflexivity|]. now apply forallb_forall. }
  assert (PD : forall n f c, In (n, (f, c)) (privates l) -> plain_dom (stored f) = map (fun y => (sf_name y, field_desc (widen_field y))) (sd_fields f)).
  { intros n f c I. unfold plain_dom. rewrite (proj1 (ST n f c I)). rewrite dict_of_NoDup; rewrite !map_map; [reflexivity|]. eapply U, I. }
  assert (FD : forall y, supported (sf_type y) = true -> core_null (field_desc (widen_field y)) = sf_nullable y) by (intros [m [] b] S; try discriminate; reflexivity).
  assert (SN : forall s, space_nullable (stored_private (privates l)) s = true <-> null_ids_in l s).
  { intros s. unfold space_nullable. rewrite existsb_exists. split.
    - intros ((n & (f & c)) & I & Q). cbn [fst snd] in Q. apply in_stored in I as (f0 & I & ->). destruct c as [| |i s']; try discriminate. apply andb_true_iff in Q as (Q1 & Q2). apply String.eqb_eq in Q1. subst s'.
      destruct (dget i (plain_dom (stored f0))) as [d|] eqn:G; [|discriminate]. apply dget_In in G. rewrite (PD _ _ _ I) in G. apply in_map_iff in G as (y & G & Y). injection G as G1 G2. subst d. rewrite FD in Q2 by (apply (proj2 (ST _ _ _ I)), Y).
      exists n, f0, i, y. auto.
    - intros (n & f & i & y & I & Y & <- & Q). exists (n, (stored f, AddRowsWithID (sf_name y) s)). split; [apply in_stored; eauto|]. cbn [fst snd]. rewrite String.eqb_refl. cbn [andb].
      rewrite (In_dget (sf_name y) (field_desc (widen_field y))); [rewrite FD; [exact Q|apply (proj2 (ST _ _ _ I)), Y]|apply plain_dom_nodup|]. rewrite (PD _ _ _ I). apply in_map_iff. eauto. }
  intros n f c pub I. cbn [root o_state start_state st_root a_data s_tree]. pose proof (sources_layout (is_rho x) _ N) as L.
  assert (G : dget n (named (tree_of_sources (is_rho x) (stored_private (privates l)))) = Some (source_table (is_rho x) (stored_private (privates l)) (stored f) c)).
  { rewrite named_sources by exact N. rewrite (In_dget n (stored f, c) _ N); [reflexivity|]. apply in_stored. eauto. }
  rewrite (get_schema_spec _ pub n _ L G).
  set (null := fun y => match c with AddRowsWithID i s => space_nullable (stored_private (privates l)) s && String.eqb (sf_name y) i | _ => false end).
  assert (D : v_dom (source_table (is_rho x) (stored_private (privates l)) (stored f) c)
              = map (fun y => (sf_name y, if null y then core_nullable (field_desc (widen_field y)) else field_desc (widen_field y))) (sd_fields f)).
  { cbn [source_table v_dom]. unfold null. destruct c as [k|g k m|i s]; try (apply (PD _ _ _ I)).
    unfold id_dom. destruct (space_nullable _ s); cbn [andb]; [|apply (PD _ _ _ I)]. rewrite (PD _ _ _ I). pose proof (U _ _ _ I) as ND. clear - ND.
    induction (sd_fields f) as [|y r IH]; [reflexivity|]. cbn [map] in *. inversion ND as [|? ? ND1 ND2]. subst. cbn [dget]. rewrite (String.eqb_sym (sf_name y) i). destruct (String.eqb i (sf_name y)) eqn:Q.
    - cbn [dset]. rewrite Q. apply String.eqb_eq in Q. subst i. f_equal. apply map_ext_in. intros z Z. destruct (String.eqb (sf_name z) (sf_name y)) eqn:QZ; [|reflexivity]. apply String.eqb_eq in QZ. destruct ND1. rewrite <- QZ. now apply in_map.
    - specialize (IH ND2). destruct (dget i (map _ r)) eqn:GR.
      + cbn [dset]. rewrite Q. now rewrite IH.
      + now rewrite IH. }
  rewrite D. unfold core_to_analytics.
  assert (W : forall r, (forall y, In y r -> supported (sf_type y) = true) -> exists cols,
     mapM (fun p => let* c := of_core (snd p) in Ok (fst p, c)) (map (fun y => (sf_name y, if null y then core_nullable (field_desc (widen_field y)) else field_desc (widen_field y))) r) = Ok cols
     /\ Forall2 (fun y p => fst p = sf_name y /\ documented (sf_type y) = Some (cd_type (snd p)) /\ (cd_nan (snd p) = true <-> cd_type (snd p) = DECIMAL) /\ (cd_inf (snd p) = true <-> cd_type (snd p) = DECIMAL)
                       /\ cd_null (snd p) = sf_nullable y || null y) r cols).
  { induction r as [|y r IH]; intros S; [exists []; split; [reflexivity|constructor]|]. destruct IH as (cols & Q & F); [intros; apply S; now right|]. cbn [map mapM snd fst]. rewrite Q.
    specialize (S y (or_introl eq_refl)). destruct y as [m t b]. cbn [sf_type] in S.
    destruct t; try discriminate; destruct (null _) eqn:NY;
      (eexists; split; [reflexivity|]; constructor; [|exact F]; cbn [fst snd sf_name sf_type sf_nullable documented cd_type cd_nan cd_inf cd_null]; rewrite ?NY, ?orb_true_r, ?orb_false_r; repeat split; congruence). }
  destruct (W (sd_fields f) (proj2 (ST _ _ _ I))) as (cols & Q & F). exists cols. split; [exact Q|]. revert F. generalize (sd_fields f). clear - SN. induction 1 as [|y p r k (F1 & F2 & F3 & F4 & F5) F IH]; constructor; [|exact IH].
  split; [exact F1|]. split; [exact F2|]. split; [exact F3|]. split; [exact F4|]. rewrite F5, orb_true_iff. apply or_iff_compat_l. unfold null. destruct c as [| |i s].
  - split; [discriminate|intros (s & Z & _); discriminate].
  - split; [discriminate|intros (s & Z & _); discriminate].
  - rewrite andb_true_iff, SN, String.eqb_eq. split; [intros (Z & <-); eauto|]. intros (s' & Z & K). injection Z as Z1 Z2. subst. auto.
Qed.
Print Assumptions C34_reported_columns.
(** In the example, IDs are declared null only among the visits, but buyers may have null IDs
    as well. *)
Example C34_reported_case : exists o cols, ~ In Build calls0 /\ build_by E0 calls0 = Ok o
  /\ (forall n f c, In (n, (f, c)) (privates calls0) -> NoDup (map sf_name (sd_fields f)))
  /\ get_schema (s_tree (root o)) [] "buyers" = Ok cols
  /\ cols = [("user", {| cd_type := INTEGER; cd_null := true; cd_nan := false; cd_inf := false |});
             ("age", {| cd_type := INTEGER; cd_null := true; cd_nan := false; cd_inf := false |})].
Proof.
  eexists. eexists. split; [intros I; cbn in I; intuition discriminate|]. split; [vm_compute; reflexivity|]. split.
  - intros n f c I. cbn in I. destruct I as [I|[I|[I|[I|[]]]]]; injection I as <- <- <-; repeat constructor; cbn; intuition discriminate.
  - split; vm_compute; reflexivity.
Qed.

(** ** C32: what single relations are refused *)

Theorem C32_relation_validation :
  (forall space d n, is_ok (mk_keys space d n) = true <-> space <> "" /\ d <> [] /\ (1 <= n)%Z)
  /\ forall space d n r, mk_keys space d n = Ok r -> r = AddRemoveKeys space d n.
Proof.
  split.
  - intros space d n. unfold mk_keys. destruct (String.eqb space "") eqn:Q; cbn [raise_if bind is_ok]; [apply String.eqb_eq in Q; split; [discriminate|tauto]|]. apply String.eqb_neq in Q.
    destruct d as [|p d]; cbn [length Nat.eqb raise_if bind is_ok]; [split; [discriminate|tauto]|].
    destruct (n <? 1)%Z eqn:Z; cbn [raise_if bind is_ok]; [apply Z.ltb_lt in Z; split; [discriminate|lia]|]. apply Z.ltb_ge in Z. split; [intros _; split; [exact Q|split; [discriminate|lia]]|reflexivity].
  - intros space d n r H. unfold mk_keys in H. destruct (String.eqb space ""); [discriminate|]. destruct (length d =? 0); [discriminate|]. destruct (n <? 1)%Z; [discriminate|]. now injection H as <-.
Qed.
Print Assumptions C32_relation_validation.
Example C32_relation_validation_case : is_ok (mk_keys "people" [("visits", "id")] 1) = true /\ is_ok (mk_keys "people" [] 1) = false /\ is_ok (mk_keys "people" [("visits", "id")] 0) = false.
Proof. split; [|split]; reflexivity. Qed.
Example C41_loaded_spark_schema_case : exists d', coerce_spark_schema_or_fail orders = Ok d' /\ NoDup (map sf_name (sd_fields orders)) /\ sd_fields d' = [fld "day" DateT false; fld "total" DoubleT false].
Proof. eexists. split; [reflexivity|]. split; [repeat constructor; cbn; intuition discriminate|reflexivity]. Qed.

(** ** C42: names of tables in queries *)

(** Identifiers: letters, digits and underscores, and no digit at the front (ASCII). *)
Definition letters : list ascii := list_ascii_of_string "ABCDEFGHIJKLMNOPQRSTUVWXYZabcdefghijklmnopqrstuvwxyz_".
Definition digits : list ascii := list_ascii_of_string "0123456789".
Definition identifier (s : string) : Prop :=
  match list_ascii_of_string s with [] => False | c :: r => In c letters /\ forall d, In d r -> In d letters \/ In d digits end.
Lemma letter_iff c : is_letter c = true <-> In c letters.
Proof.
  assert (H : is_letter c = existsb (Ascii.eqb c) letters) by (destruct c as [[] [] [] [] [] [] [] []]; vm_compute; reflexivity).
  rewrite H, existsb_exists. split; [intros (x & I & E); apply Ascii.eqb_eq in E; now subst|]. intros I. exists c. split; [exact I|apply Ascii.eqb_refl].
Qed.
Lemma digit_iff c : is_digit c = true <-> In c digits.
Proof.
  assert (H : is_digit c = existsb (Ascii.eqb c) digits) by (destruct c as [[] [] [] [] [] [] [] []]; vm_compute; reflexivity).
  rewrite H, existsb_exists. split; [intros (x & I & E); apply Ascii.eqb_eq in E; now subst|]. intros I. exists c. split; [exact I|apply Ascii.eqb_refl].
Qed.
Lemma identifier_iff s : is_identifier s = true <-> identifier s.
Proof.
  unfold identifier. destruct s as [|c r]; cbn [is_identifier list_ascii_of_string]; [split; [discriminate|intros []]|].
  rewrite andb_true_iff, letter_iff. assert (H : all_chars (fun x => is_letter x || is_digit x) r = true <-> forall d, In d (list_ascii_of_string r) -> In d letters \/ In d digits); [|tauto].
  induction r as [|d r IH]; cbn [all_chars list_ascii_of_string]; [split; [intros _ d []|reflexivity]|].
  rewrite andb_true_iff, orb_true_iff, letter_iff, digit_iff, IH. split.
  - intros (A & B) x [<-|I]; [exact A|apply B, I].
  - intros H. split; [apply H; left; reflexivity|]. intros x I. apply H. right. exact I.
Qed.
(** A query can be started from exactly the names that are identifiers; other names raise
    ValueError at once. *)
Theorem C42_source_names : forall auto n,
  (identifier n -> QueryBuilder.new_builder auto n = Ok {| QueryBuilder.bu_source := n; QueryBuilder.bu_expr := PrivateSource n |})
  /\ (~ identifier n -> QueryBuilder.new_builder auto n = Err ValueError).
Proof.
  intros auto n. unfold QueryBuilder.new_builder. cbn [post_init]. destruct (is_identifier n) eqn:E; cbn [negb raise_if bind]; split; intros H; try reflexivity.
  - apply identifier_iff in E. contradiction.
  - apply identifier_iff in H. congruence.
Qed.
Print Assumptions C42_source_names.
Example C42_source_names_case : identifier "_table2" /\ ~ identifier "2nd" /\ ~ identifier "my table" /\ ~ identifier "".
Proof. rewrite <- !identifier_iff. repeat split; vm_compute; discriminate || reflexivity. Qed.
