(** Properties C15, C19, C23, C24 and C43: what transformations do to schemas, data,
    constraints and privacy IDs. *)
From Coq Require Import String Bool Arith ZArith QArith Qcanon Lia Permutation List.
From Verif Require Import Prelude Value Rows Constraints ConstraintsSpec ConstraintsProofs ConstraintsStab Schema SchemaProofs
  Query Transform TransformSpec TransformConform TransformVisit TransformAgree TransformIds QueryProofs PropagateProofs.
Import ListNotations.
Local Open Scope string_scope.
Local Open Scope nat_scope.

(** *** Material for the examples *)
Definition W0 : world :=
  {| w_cond_ok := fun _ _ => true; w_cond_holds := fun _ r => value_eqb (getv "grp" r) (VStr "x");
     w_row_order := rec_order; w_key_order := fun _ => value_order |}.
Definition dsc (t : ctype) (n x i : bool) : coldesc := {| cd_type := t; cd_null := n; cd_nan := x; cd_inf := i |}.
Definition sch0 (cols : dict coldesc) (id : option string) : schema :=
  {| sc_cols := cols; sc_group := None; sc_id := id; sc_space := match id with Some _ => Some "people" | None => None end |}.
Definition tab0 (s : schema) (rows : table) : vtab :=
  {| v_dom := analytics_to_core s; v_coll := sc_space s;
     v_place := match sc_id s with Some i => PKeys i | None => PSym end; v_rows := rows |}.
Definition cat0 (l : list (string * schema * list constraint * table)) (pub : dict (schema * sframe)) : catalog :=
  {| cat_private := map (fun x => (fst (fst (fst x)), (snd (fst (fst x)), snd (fst x)))) l; cat_public := pub |}.
Definition data0 (l : list (string * schema * list constraint * table)) : dict vtab :=
  map (fun x => (fst (fst (fst x)), tab0 (snd (fst (fst x))) (snd x))) l.

(** A computable version of [conforms] and [inputs_ok] for the examples. *)
Definition row_conformsb (cols : dict coldesc) (r : rec) : bool :=
  negb (has_dup (dkeys r)) && forallb (fun c => smem c (dkeys cols)) (dkeys r)
  && forallb (fun c => smem c (dkeys r)) (dkeys cols)
  && forallb (fun p => cell_ok (snd p) (getv (fst p) r)) cols.
Lemma has_dup_NoDup l : has_dup l = false -> NoDup l.
Proof.
  unfold has_dup. intros H. apply negb_false_iff, Nat.eqb_eq in H. revert H. induction l as [|x l IH]; intros H; [constructor|].
  simpl in H. destruct (in_dec string_dec x l) as [I|N].
  - exfalso. pose proof (NoDup_incl_length (NoDup_nodup string_dec l) (fun y Y => proj1 (nodup_In string_dec l y) Y)). simpl in H. lia.
  - constructor; [exact N|]. apply IH. simpl in H. injection H as H. exact H.
Qed.
Lemma row_conformsb_ok cols r : row_conformsb cols r = true -> row_conforms cols r.
Proof.
  unfold row_conformsb. intros H. apply andb_prop in H. destruct H as [H H4]. apply andb_prop in H. destruct H as [H H3].
  apply andb_prop in H. destruct H as [H1 H2]. split; [|split].
  - apply has_dup_NoDup, negb_true_iff, H1.
  - intros c. rewrite forallb_forall in H2, H3. split; intros I; apply smem_In; [apply H2|apply H3]; exact I.
  - intros c d D. rewrite forallb_forall in H4. apply (H4 (c, d)). apply dget_In, D.
Qed.
Definition source_ok (x : string * schema * list constraint * table) : bool :=
  let s := snd (fst (fst x)) in
  negb (has_dup (dkeys (sc_cols s)))
  && match sc_group s with None => true | Some _ => false end
  && match sc_id s with None => true | Some i => smem i (dkeys (sc_cols s)) end
  && forallb (row_conformsb (sc_cols s)) (snd x).
Lemma inputs0_ok l2 l : negb (has_dup (map (fun x => fst (fst (fst x))) l)) && forallb source_ok l = true ->
  inputs_ok l2 (cat0 l []) (data0 l).
Proof.
  intros H. apply andb_prop in H. destruct H as [_ H]. rewrite forallb_forall in H. split; [|intros ? ? ? Q; discriminate Q].
  unfold cat0, data0. cbn [cat_private]. induction l as [|[[[n s] cs] rows] l IH]; [discriminate|].
  intros name t D. cbn [map fst snd dget] in *. destruct (String.eqb name n) eqn:E.
  - injection D as <-. exists s, cs. split; [reflexivity|]. specialize (H _ (or_introl eq_refl)). unfold source_ok in H.
    cbn [fst snd] in H. apply andb_prop in H. destruct H as [H H4]. apply andb_prop in H. destruct H as [H H3].
    apply andb_prop in H. destruct H as [H1 H2]. apply negb_true_iff, has_dup_NoDup in H1.
    destruct (sc_group s) eqn:Eg; [discriminate|].
    split; [exact H1|]. split; [unfold tab0; cbn [v_dom]; unfold analytics_to_core, dkeys; rewrite map_map; exact H1|].
    split; [intros c [Q|Q]; [discriminate|]; rewrite Q in H3; apply smem_In, H3|].
    split; [intros k; reflexivity|]. split.
    + unfold metric_for. rewrite Eg. unfold tab0. cbn [v_place]. destruct (sc_id s); reflexivity.
    + intros r Ir. apply row_conformsb_ok. rewrite forallb_forall in H4. apply H4, Ir.
  - apply IH; [|exact D]. intros x I. apply H. right. exact I.
Qed.

(** ** C19: a query's schema describes its data *)

(** For every query the constructors accept, over tables that conform to their schemas and
    with user functions that return what they declare: the table the query stands for
    conforms to the schema reported for the query, and has the metric the schema calls for
    (the domain also agrees in every column). *)
Theorem C19_schema_describes_data : forall W l2 cat data auto q0 q s t cs,
  inputs_ok l2 cat data -> build auto q0 = Ok q -> promises W l2 cat data q ->
  schema_of (w_cond_ok W) cat q = Ok s -> build_transformation W l2 cat data q = Ok (t, cs) ->
  NoDup (dkeys (sc_cols s)) /\ conforms (sc_cols s) (v_rows t) /\ metric_for l2 s (v_place t)
  /\ same_entries (v_dom t) (analytics_to_core s).
Proof. intros W l2 cat data auto q0 q s t cs IN B. exact (built_conforms W l2 cat data IN auto q s t cs (build_built auto q0 q B)). Qed.
Print Assumptions C19_schema_describes_data.

(** The library checks the agreement at run time and raises an internal error if it fails.
    For queries that are regular the check is superfluous: if the schema can be computed and
    the transformation can be built, they agree. *)
Theorem C19_no_mismatch_on_regular_queries : forall W l2 cat data auto q0 q s t cs,
  inputs_ok l2 cat data -> build auto q0 = Ok q -> promises W l2 cat data q -> regular W cat q ->
  schema_of (w_cond_ok W) cat q = Ok s -> visit W l2 cat data q = Ok (t, cs) ->
  build_transformation W l2 cat data q = Ok (t, cs).
Proof. intros W l2 cat data auto q0 q s t cs IN B. exact (regular_accepted W l2 cat data IN auto q s t cs (build_built auto q0 q B)). Qed.
Print Assumptions C19_no_mismatch_on_regular_queries.

Definition people : schema := sch0 [("id", dsc VARCHAR false false false); ("grp", dsc VARCHAR true false false);
                                    ("x", dsc DECIMAL true true true)] (Some "id").
Definition prow (id : string) (g x : value) : rec := [("id", VStr id); ("grp", g); ("x", x)].
Definition people_rows : table :=
  [prow "a" (VStr "x") (VFloat FNan); prow "a" VNull VNull; prow "b" (VStr "x") (VFloat FPInf); prow "b" (VStr "y") (VFloat (z_to_f 3))].
Definition people_src := [("people", people, [MaxRowsPerID 2; MaxGroupsPerID "grp" 2], people_rows)].
Definition codes_frame : sframe :=
  {| sd_fields := [{| sf_name := "grp"; sf_type := StringT; sf_nullable := false |};
                   {| sf_name := "x"; sf_type := IntegerT; sf_nullable := true |}];
     sd_rows := [[VStr "x"; VInt 7]; [VStr "x"; VInt 8]; [VStr "z"; VNull]] |}.
Definition pipeline : query :=
  Select (Rename (MapQ (ReplaceNullAndNan (JoinPublic (DropInfinity (Filter (PrivateSource "people") "grp = 'x'") ["x"])
            (PubFrame codes_frame) (Some ["grp"]) "inner") [("x_left", VInt 5)])
          (fun r => [("y", VInt 1)]) (sch0 [("y", dsc INTEGER false false false)] None) true)
     [("id", "who")]) ["who"; "x_left"; "y"].

(** What it evaluates to. *)
Definition pq : query := Eval vm_compute in match build false pipeline with Ok q => q | Err _ => pipeline end.
Definition pcat := cat0 people_src [].
Definition pdata := data0 people_src.
Definition ps : schema := Eval vm_compute in match schema_of (w_cond_ok W0) pcat pq with Ok s => s | Err _ => people end.
Definition pt : vtab := Eval vm_compute in match visit W0 false pcat pdata pq with Ok (t, _) => t | Err _ => tab0 people [] end.
Lemma ptab : visit W0 false pcat pdata pq = Ok (pt, [MaxRowsPerID 4]).
Proof. vm_compute. reflexivity. Qed.

Example C19_case :
  inputs_ok false pcat pdata
  /\ build false pipeline = Ok pq
  /\ promises W0 false pcat pdata pq
  /\ regular W0 pcat pq
  /\ schema_of (w_cond_ok W0) pcat pq = Ok ps
  /\ build_transformation W0 false pcat pdata pq = Ok (pt, [MaxRowsPerID 4])
  /\ sc_cols ps = [("who", dsc VARCHAR false false false); ("x_left", dsc DECIMAL false false false); ("y", dsc INTEGER true false false)]
  /\ sc_id ps = Some "who"
  /\ v_rows pt = [[("who", VStr "a"); ("x_left", VFloat (z_to_f 5)); ("y", VInt 1)];
                  [("who", VStr "a"); ("x_left", VFloat (z_to_f 5)); ("y", VInt 1)]].
Proof.
  split; [apply inputs0_ok; vm_compute; reflexivity|]. split; [vm_compute; reflexivity|].
  split; [|split; [|repeat split; vm_compute; reflexivity]].
  - unfold pq. cbn [promises].
    split; [split; [split; [split; [exact I|]|split]|split]|].
    + split; [apply has_dup_NoDup; reflexivity|].
      intros cols H r [<-|[<-|[<-|[]]]]; injection H as <-; apply row_conformsb_ok; reflexivity.
    + apply has_dup_NoDup. reflexivity.
    + intros t cs k v d V [[= <- <-]|[]] D. vm_compute in V. injection V as <- <-. vm_compute in D. injection D as <-. exact I.
    + apply has_dup_NoDup. reflexivity.
    + intros t cs r V _ c d D. cbn in D. destruct (String.eqb c "y") eqn:Ec; [|discriminate]. apply String.eqb_eq in Ec. subst c.
      injection D as <-. reflexivity.
    + intros t cs V. vm_compute in V. injection V as <- <-. apply has_dup_NoDup. reflexivity.
  - unfold pq. cbn [regular]. repeat split; auto; intros; discriminate.
Qed.

(** An irregular query: replacing infinities in an ID table whose ID column is a float
    column.  The reported schema leaves the ID column alone, the transformation does not,
    and the run-time check turns the mismatch into an internal error. *)
Example C19_irregular_case :
  exists cat data s, inputs_ok false cat data
    /\ schema_of (w_cond_ok W0) cat (ReplaceInfinity (PrivateSource "f") []) = Ok s
    /\ build_transformation W0 false cat data (ReplaceInfinity (PrivateSource "f") []) = Err InternalError.
Proof.
  set (l := [("f", sch0 [("id", dsc DECIMAL false true true)] (Some "id"), @nil constraint, [[("id", VFloat FPInf)]])]).
  exists (cat0 l []), (data0 l). eexists. split; [apply inputs0_ok; reflexivity|]. split; reflexivity.
Qed.

(** ** C15: recorded constraints hold *)

(** Every constraint recorded for a derived table holds of it, provided those recorded for
    the inputs held and the query is trackable (see TransformSpec: no default replacement
    touches a column that a MaxRowsPerGroupPerID constraint groups by, and private joins do
    not take a MaxGroupsPerID constraint for a bound on rows).  Partial: both provisos are
    necessary, as the two theorems below show. *)
Theorem C15_recorded_constraints_hold_partial : forall W l2 cat data auto q0 q s t cs i,
  inputs_ok l2 cat data -> constraints_hold cat data ->
  build auto q0 = Ok q -> promises W l2 cat data q -> finite_ids W l2 cat data q -> trackable W l2 cat data q ->
  schema_of (w_cond_ok W) cat q = Ok s -> visit W l2 cat data q = Ok (t, cs) -> v_place t = PKeys i ->
  satisfies_all i cs (v_rows t).
Proof.
  intros W l2 cat data auto q0 q s t cs i IN HO B P F K S V Pi.
  exact (proj1 (visit_tracked W l2 cat data IN HO auto q (build_built auto q0 q B) P F K s t cs S V i Pi)).
Qed.
Print Assumptions C15_recorded_constraints_hold_partial.

Lemma rows_satb i c t : match c with MaxRowsPerID m => forallb (fun r => length (rows_of i (getv i r) t) <=? m) t
                        | MaxGroupsPerID g m => forallb (fun r => length (nodup value_eq_dec (map (getv g) (rows_of i (getv i r) t))) <=? m) t
                        | MaxRowsPerGroupPerID g m => forallb (fun r => length (filter (has_value g (getv g r)) (rows_of i (getv i r) t)) <=? m) t
                        end = true -> satisfies i c t.
Proof.
  assert (Z : forall v, (forall r, In r t -> getv i r <> v) -> rows_of i v t = []).
  { intros v H. unfold rows_of. induction t as [|r t IH]; [reflexivity|]. cbn [filter].
    destruct (has_value i v r) eqn:E; [exfalso; apply (H r (or_introl eq_refl)); apply has_value_true, E|].
    apply IH. intros x Ix. apply H. right. exact Ix. }
  assert (D : forall v, (exists r, In r t /\ getv i r = v) \/ rows_of i v t = []).
  { intros v. destruct (in_dec value_eq_dec v (map (getv i) t)) as [I|N].
    - left. apply in_map_iff in I. destruct I as (r & E & I). eauto.
    - right. apply Z. intros r I E. apply N. apply in_map_iff. eauto. }
  destruct c as [m|g m|g m]; intros H; rewrite forallb_forall in H.
  - intros v. destruct (D v) as [(r & I & <-)| -> ]; [apply Nat.leb_le, H, I|simpl; lia].
  - intros v vs N Hv. destruct (D v) as [(r & I & <-)|E].
    + specialize (H r I). apply Nat.leb_le in H. etransitivity; [|exact H]. apply NoDup_incl_length; [exact N|].
      intros x Ix. apply nodup_In. destruct (Hv x Ix) as (y & Iy & <-). apply in_map, Iy.
    + destruct vs as [|x vs]; [simpl; lia|]. destruct (Hv x (or_introl eq_refl)) as (r & I & _). rewrite E in I. destruct I.
  - intros v w. destruct (D v) as [(r & I & <-)| -> ]; [|simpl; lia].
    destruct (filter (has_value g w) (rows_of i (getv i r) t)) as [|x l] eqn:E; [simpl; lia|].
    assert (Ix : In x (filter (has_value g w) (rows_of i (getv i r) t))) by (rewrite E; left; reflexivity).
    apply filter_In in Ix. destruct Ix as [Ix Hw]. apply has_value_true in Hw. unfold rows_of in Ix. apply filter_In in Ix. destruct Ix as [Ix Hi].
    apply has_value_true in Hi. specialize (H x Ix). apply Nat.leb_le in H. rewrite Hw, Hi, E in H. exact H.
Qed.
Lemma constraints0 l : negb (has_dup (map (fun x => fst (fst (fst x))) l))
    && forallb (fun x : string * schema * list constraint * table => match sc_id (snd (fst (fst x))) with None => true | Some i =>
         forallb (fun c => match c with MaxRowsPerID m => forallb (fun r => length (rows_of i (getv i r) (snd x)) <=? m) (snd x)
                        | MaxGroupsPerID g m => forallb (fun r => length (nodup value_eq_dec (map (getv g) (rows_of i (getv i r) (snd x)))) <=? m) (snd x)
                        | MaxRowsPerGroupPerID g m => forallb (fun r => length (filter (has_value g (getv g r)) (rows_of i (getv i r) (snd x))) <=? m) (snd x)
                        end && match grouping c with Some g => smem g (dkeys (sc_cols (snd (fst (fst x))))) | None => true end) (snd (fst x)) end) l = true ->
  constraints_hold (cat0 l []) (data0 l).
Proof.
  intros H. apply andb_prop in H. destruct H as [_ H]. rewrite forallb_forall in H. intros name t s cs i D C P.
  unfold cat0, data0 in *. cbn [cat_private] in C. induction l as [|[[[n s1] cs1] rows] l IH]; [discriminate|].
  cbn [map fst snd dget] in *. destruct (String.eqb name n).
  - injection D as <-. injection C as -> ->. specialize (H _ (or_introl eq_refl)). cbn [fst snd] in H.
    unfold tab0 in P. cbn [v_place] in P. destruct (sc_id s) as [j|]; [|discriminate]. injection P as ->.
    rewrite forallb_forall in H. unfold tab0. cbn [v_rows v_dom]. split.
    + intros c Ic. specialize (H c Ic). apply andb_prop in H. apply rows_satb, H.
    + intros c g Ic Eg. specialize (H c Ic). apply andb_prop in H. destruct H as [_ H]. rewrite Eg in H. apply smem_In in H.
      unfold analytics_to_core, dkeys. rewrite map_map. exact H.
  - apply IH; [|assumption..]. intros x I. apply H. right. exact I.
Qed.

(** The hypotheses are met by the pipeline of C19_case, which records MaxRowsPerID 4. *)
Example C15_case :
  inputs_ok false pcat pdata /\ constraints_hold pcat pdata /\ build false pipeline = Ok pq
  /\ finite_ids W0 false pcat pdata pq /\ trackable W0 false pcat pdata pq
  /\ visit W0 false pcat pdata pq = Ok (pt, [MaxRowsPerID 4]) /\ v_place pt = PKeys "who" /\ v_rows pt <> [].
Proof.
  split; [apply C19_case|]. split; [apply constraints0; vm_compute; reflexivity|]. split; [apply C19_case|].
  split; [exact I|]. split; [unfold pq; cbn [trackable]; split; [exact I|discriminate]|]. split; [exact ptab|].
  split; [reflexivity|discriminate].
Qed.

(** Replacing nulls without naming columns merges the null group with another one, but a
    MaxRowsPerGroupPerID constraint on the column is still recorded. *)
Theorem C15_default_replacement_refuted : exists W cat data q t cs i,
  inputs_ok false cat data /\ constraints_hold cat data /\ build false q = Ok q
  /\ promises W false cat data q /\ build_transformation W false cat data q = Ok (t, cs) /\ v_place t = PKeys i
  /\ ~ satisfies_all i cs (v_rows t).
Proof.
  set (l := [("people", people, [MaxRowsPerGroupPerID "grp" 1], [prow "a" (VStr "") VNull; prow "a" VNull VNull])]).
  exists W0, (cat0 l []), (data0 l), (ReplaceNullAndNan (PrivateSource "people") []). eexists _, _, "id".
  split; [apply inputs0_ok; reflexivity|]. split; [apply constraints0; reflexivity|]. split; [reflexivity|].
  split; [cbn; repeat split; [constructor|intros ? ? ? ? ? ? []]|]. split; [reflexivity|]. split; [reflexivity|].
  intros S. specialize (S (MaxRowsPerGroupPerID "grp" 1) (or_introl eq_refl) (VStr "a") (VStr "")). vm_compute in S. lia.
Qed.
Print Assumptions C15_default_replacement_refuted.

(** A MaxGroupsPerID constraint on a join column says nothing about how many rows match, but
    is used as if it did. *)
Definition orders : schema := sch0 [("id", dsc VARCHAR false false false); ("day", dsc VARCHAR false false false);
                                    ("n", dsc INTEGER false false false)] (Some "id").
Definition orow (id day : string) (n : Z) : rec := [("id", VStr id); ("day", VStr day); ("n", VInt n)].
Definition visits : schema := sch0 [("id", dsc VARCHAR false false false); ("day", dsc VARCHAR false false false)] (Some "id").
Theorem C15_private_join_refuted : exists W cat data q t cs i,
  inputs_ok false cat data /\ constraints_hold cat data /\ build false q = Ok q
  /\ promises W false cat data q /\ build_transformation W false cat data q = Ok (t, cs) /\ v_place t = PKeys i
  /\ ~ satisfies_all i cs (v_rows t).
Proof.
  set (l := [("orders", orders, [MaxGroupsPerID "day" 1], [orow "a" "mon" 1; orow "a" "mon" 2]);
             ("visits", visits, [MaxRowsPerID 1], [[("id", VStr "a"); ("day", VStr "mon")]])]).
  exists W0, (cat0 l []), (data0 l), (JoinPrivate (PrivateSource "visits") (PrivateSource "orders") None None None). eexists _, _, "id".
  split; [apply inputs0_ok; reflexivity|]. split; [apply constraints0; reflexivity|]. split; [reflexivity|].
  split; [cbn; auto|]. split; [reflexivity|]. split; [reflexivity|].
  intros S. specialize (S (MaxRowsPerID 1) (or_introl eq_refl) (VStr "a")). vm_compute in S. lia.
Qed.
Print Assumptions C15_private_join_refuted.

(** ** C23: join schemas *)

(** What a schema for a join must look like. *)
Record join_schema_ok (l r : schema) (on : option (list string)) (left : bool) (s : schema) : Prop := {
  js_some : chosen l r on <> [];
  (** columns: the join columns, then the other columns of each side, suffixed exactly when
      the other side has a column of that name; no name twice *)
  js_names : dkeys (sc_cols s) = join_names (chosen l r on) (dkeys (sc_cols l)) (dkeys (sc_cols r));
  js_once : NoDup (dkeys (sc_cols s));
  js_joined : forall c, In c (chosen l r on) -> exists a b d,
        dget c (sc_cols l) = Some a /\ dget c (sc_cols r) = Some b /\ dget c (sc_cols s) = Some d
        /\ cd_type d = cd_type a /\ cd_type d = cd_type b
        /\ (cd_null d = if left then cd_null a else cd_null a && cd_null b)
        /\ (cd_type a = DECIMAL ->
            cd_nan d = (if left then cd_nan a else cd_nan a && cd_nan b)
            /\ cd_inf d = (if left then cd_inf a else cd_inf a && cd_inf b));
  js_left : forall c a, dget c (sc_cols l) = Some a -> ~ In c (chosen l r on) -> exists d,
        dget (out_name (dkeys (sc_cols r)) "_left" c) (sc_cols s) = Some d
        /\ cd_type d = cd_type a /\ cd_null d = cd_null a
        /\ (cd_type a = DECIMAL -> cd_nan d = cd_nan a /\ cd_inf d = cd_inf a);
  js_right : forall c b, dget c (sc_cols r) = Some b -> ~ In c (chosen l r on) -> exists d,
        dget (out_name (dkeys (sc_cols l)) "_right" c) (sc_cols s) = Some d
        /\ cd_type d = cd_type b /\ cd_null d = left || cd_null b
        /\ (cd_type b = DECIMAL -> cd_nan d = cd_nan b /\ cd_inf d = cd_inf b);
  js_id : sc_id s = sc_id l
}.
Lemma join_schema l r on space how s : NoDup (dkeys (sc_cols l)) -> NoDup (dkeys (sc_cols r)) ->
  schema_for_join l r on space how = Ok s -> join_schema_ok l r on (String.eqb how "left") s.
Proof.
  intros Nl Nr H. destruct (schema_for_join_ok l r on space how s Nl Nr H) as (A & B & C & D & E & F & G & _). constructor; assumption.
Qed.
Theorem C23_private_join_schema : forall cond_ok cat ql qr tl tr on l r s,
  NoDup (dkeys (sc_cols l)) -> NoDup (dkeys (sc_cols r)) ->
  schema_of cond_ok cat ql = Ok l -> schema_of cond_ok cat qr = Ok r ->
  schema_of cond_ok cat (JoinPrivate ql qr tl tr on) = Ok s ->
  join_schema_ok l r on false s /\ sc_id r = sc_id l /\ sc_space r = sc_space l /\ sc_space s = sc_space l.
Proof.
  intros cond_ok cat ql qr tl tr on l r s Nl Nr L R H. cbn [schema_of] in H. rewrite L, R in H. cbn [bind] in H.
  unfold join_private_schema in H. inv_ok H. inv_ok H. inv_ok H.
  destruct (schema_for_join_ok l r on _ _ s Nl Nr H) as (_ & _ & _ & _ & _ & _ & _ & Sp).
  split; [exact (join_schema l r on _ "inner" s Nl Nr H)|]. split; [|split; [|exact Sp]].
  - apply negb_false_iff in E. destruct (sc_id l), (sc_id r); cbn in E; try discriminate; [apply String.eqb_eq in E; subst|]; reflexivity.
  - apply negb_false_iff in E0. destruct (sc_space l), (sc_space r); cbn in E0; try discriminate; [apply String.eqb_eq in E0; subst|]; reflexivity.
Qed.
Print Assumptions C23_private_join_schema.
Theorem C23_public_join_schema : forall cond_ok cat ql p on how l r s,
  NoDup (dkeys (sc_cols l)) -> NoDup (dkeys (sc_cols r)) ->
  schema_of cond_ok cat ql = Ok l -> public_schema cat p = Ok r ->
  schema_of cond_ok cat (JoinPublic ql p on how) = Ok s ->
  join_schema_ok l r on (String.eqb how "left") s /\ sc_space s = sc_space l.
Proof.
  intros cond_ok cat ql p on how l r s Nl Nr L R H. cbn [schema_of] in H. rewrite L in H. cbn [bind] in H.
  unfold join_public_schema in H. rewrite R in H. cbn [bind] in H. inv_ok H.
  destruct (schema_for_join_ok l r on _ _ s Nl Nr H) as (_ & _ & _ & _ & _ & _ & _ & Sp).
  split; [exact (join_schema l r on _ how s Nl Nr H)|exact Sp].
Qed.
Print Assumptions C23_public_join_schema.

(** Joins whose output names would collide are refused. *)
Theorem C23_collisions_refused : forall cond_ok cat ql l r on,
  NoDup (dkeys (sc_cols l)) -> NoDup (dkeys (sc_cols r)) ->
  schema_of cond_ok cat ql = Ok l ->
  ~ NoDup (join_names (chosen l r on) (dkeys (sc_cols l)) (dkeys (sc_cols r))) ->
  (forall qr tl tr s, schema_of cond_ok cat qr = Ok r -> schema_of cond_ok cat (JoinPrivate ql qr tl tr on) <> Ok s)
  /\ (forall p how s, public_schema cat p = Ok r -> schema_of cond_ok cat (JoinPublic ql p on how) <> Ok s).
Proof.
  intros cond_ok cat ql l r on Nl Nr L N. split.
  - intros qr tl tr s R H. apply N. destruct (C23_private_join_schema _ _ _ _ _ _ _ _ _ _ Nl Nr L R H) as [[_ J O _ _ _ _] _].
    rewrite <- J. exact O.
  - intros p how s R H. apply N. destruct (C23_public_join_schema _ _ _ _ _ _ _ _ _ Nl Nr L R H) as [[_ J O _ _ _ _] _].
    rewrite <- J. exact O.
Qed.
Print Assumptions C23_collisions_refused.

Lemma same_types_pass (l r : dict coldesc) J :
  (forall c, In c J -> exists a b, dget c l = Some a /\ dget c r = Some b /\ cd_type a = cd_type b) ->
  mapM (fun c => let* a := lookup_col l c in let* b := lookup_col r c in
                 raise_if (negb (ctype_eqb (cd_type a) (cd_type b))) ValueError) J = Ok (map (fun _ => tt) J).
Proof.
  induction J as [|c J IH]; intros Ty; [reflexivity|]. cbn [mapM map].
  destruct (Ty c (or_introl eq_refl)) as (a & b & A & B & T). unfold lookup_col at 1 2. rewrite A, B. cbn [bind].
  rewrite T. assert (ctype_eqb (cd_type b) (cd_type b) = true) as -> by (destruct (cd_type b); reflexivity). cbn [negb raise_if bind].
  rewrite IH by (intros; apply Ty; right; assumption). reflexivity.
Qed.
(** The grouping column of a join is that of the tables joined, which must not have two
    different ones. *)
Theorem C23_grouping_column : forall cond_ok cat ql l r on,
  schema_of cond_ok cat ql = Ok l ->
  (forall qr tl tr s, schema_of cond_ok cat qr = Ok r -> schema_of cond_ok cat (JoinPrivate ql qr tl tr on) = Ok s ->
    (forall g g', sc_group l = Some g -> sc_group r = Some g' -> g = g') /\ (forall g, sc_group s = Some g <-> sc_group l = Some g \/ sc_group r = Some g))
  /\ (forall p how s, public_schema cat p = Ok r -> schema_of cond_ok cat (JoinPublic ql p on how) = Ok s ->
    (forall g g', sc_group l = Some g -> sc_group r = Some g' -> g = g') /\ (forall g, sc_group s = Some g <-> sc_group l = Some g \/ sc_group r = Some g)).
Proof.
  assert (X : forall l r on space how s, validate_join l r on = Ok tt -> schema_for_join l r on space how = Ok s ->
    (forall g g', sc_group l = Some g -> sc_group r = Some g' -> g = g') /\ (forall g, sc_group s = Some g <-> sc_group l = Some g \/ sc_group r = Some g)).
  { intros l r on space how s V H. unfold validate_join in V. apply bind_ok in V as ([] & V & _). apply raise_if_ok in V.
    unfold schema_for_join in H. apply bind_ok in H as (dm & _ & H). apply bind_ok in H as (d & _ & H). apply mk_schema_ok in H as (_ & _ & _ & ->). cbn [sc_group].
    destruct (sc_group l) as [g0|], (sc_group r) as [g1|]; [apply negb_false_iff, String.eqb_eq in V as ->| | |];
      (split; [intros; congruence|intros g; split; [intros E; auto|intros [E|E]; congruence]]). }
  intros cond_ok cat ql l r on L. split.
  - intros qr tl tr s R H. cbn [schema_of] in H. rewrite L, R in H. cbn [bind] in H. unfold join_private_schema in H.
    apply bind_ok in H as ([] & _ & H). apply bind_ok in H as ([] & _ & H). apply bind_ok in H as ([] & V & H). exact (X _ _ _ _ _ _ V H).
  - intros p how s R H. cbn [schema_of] in H. rewrite L in H. cbn [bind] in H. unfold join_public_schema in H. rewrite R in H. cbn [bind] in H.
    apply bind_ok in H as ([] & V & H). exact (X _ _ _ _ _ _ V H).
Qed.
Print Assumptions C23_grouping_column.

(** Nothing else is refused: a join on at least one column, all of them common and of equal
    types, of tables without two different grouping columns - and, if private, with the same
    ID column and space - succeeds unless names collide or the ID or grouping column is
    suffixed. *)
Lemma join_accepted l r on space how :
  NoDup (dkeys (sc_cols l)) -> NoDup (dkeys (sc_cols r)) -> ~ In "" (dkeys (sc_cols l)) -> ~ In "" (dkeys (sc_cols r)) ->
  (forall g g', sc_group l = Some g -> sc_group r = Some g' -> g = g') ->
  chosen l r on <> [] ->
  (forall c, In c (chosen l r on) -> exists a b, dget c (sc_cols l) = Some a /\ dget c (sc_cols r) = Some b /\ cd_type a = cd_type b) ->
  NoDup (join_names (chosen l r on) (dkeys (sc_cols l)) (dkeys (sc_cols r))) ->
  (forall c, sc_id l = Some c \/ sc_group l = Some c \/ sc_group r = Some c -> In c (join_names (chosen l r on) (dkeys (sc_cols l)) (dkeys (sc_cols r)))) ->
  validate_join l r on = Ok tt /\ exists s, schema_for_join l r on space how = Ok s.
Proof.
  intros Nl Nr El Er Gr Ne Ty Nj Ij. split.
  - unfold validate_join.
    assert (match sc_group l, sc_group r with Some a, Some b => negb (String.eqb a b) | _, _ => false end = false) as ->.
    { destruct (sc_group l) as [a|], (sc_group r) as [b|]; try reflexivity. rewrite (Gr a b eq_refl eq_refl), String.eqb_refl. reflexivity. }
    cbn [raise_if bind]. unfold chosen in *.
    assert (Some [] <> on) as Hn by (intros <-; apply Ne; reflexivity).
    assert (match on with Some [] => true | _ => false end = false) as -> by (destruct on as [[|]|]; congruence). cbn [raise_if bind].
    assert (match on with None => length (common_columns (sc_cols l) (sc_cols r)) =? 0 | Some _ => false end = false) as ->.
    { destruct on as [o|]; [reflexivity|]. destruct (common_columns (sc_cols l) (sc_cols r)); [contradiction|reflexivity]. }
    cbn [raise_if bind].
    assert (existsb (fun c => negb (smem c (common_columns (sc_cols l) (sc_cols r))))
              match on with Some c => c | None => common_columns (sc_cols l) (sc_cols r) end = false) as ->.
    { apply not_true_iff_false. intros X. apply existsb_exists in X. destruct X as (c & Ic & Nc). apply negb_true_iff, smem_false in Nc.
      apply Nc. unfold common_columns. apply filter_In. destruct (Ty c Ic) as (a & b & A & B & _).
      split; [apply in_dkeys; eauto|apply dmem_In, in_dkeys; eauto]. }
    cbn [raise_if bind]. rewrite same_types_pass; [reflexivity|exact Ty].
  - apply (schema_for_join_accepts l r on space how Nl Nr El Er Ne Ty Nj). intros c [I|[I|[_ I]]]; apply Ij; auto.
Qed.
Theorem C23_other_joins_accepted : forall cond_ok cat ql l r on,
  NoDup (dkeys (sc_cols l)) -> NoDup (dkeys (sc_cols r)) ->
  ~ In "" (dkeys (sc_cols l)) -> ~ In "" (dkeys (sc_cols r)) ->
  schema_of cond_ok cat ql = Ok l ->
  (forall g g', sc_group l = Some g -> sc_group r = Some g' -> g = g') ->
  chosen l r on <> [] ->
  (forall c, In c (chosen l r on) -> exists a b, dget c (sc_cols l) = Some a /\ dget c (sc_cols r) = Some b /\ cd_type a = cd_type b) ->
  NoDup (join_names (chosen l r on) (dkeys (sc_cols l)) (dkeys (sc_cols r))) ->
  (forall c, sc_id l = Some c \/ sc_group l = Some c \/ sc_group r = Some c -> In c (join_names (chosen l r on) (dkeys (sc_cols l)) (dkeys (sc_cols r)))) ->
  (forall qr tl tr, schema_of cond_ok cat qr = Ok r -> sc_id l = sc_id r -> sc_space l = sc_space r ->
     exists s, schema_of cond_ok cat (JoinPrivate ql qr tl tr on) = Ok s)
  /\ (forall p how, public_schema cat p = Ok r -> exists s, schema_of cond_ok cat (JoinPublic ql p on how) = Ok s).
Proof.
  intros cond_ok cat ql l r on Nl Nr El Er L Gr Ne Ty Nj Ij. split.
  - intros qr tl tr R Id Sp. cbn [schema_of]. rewrite L, R. cbn [bind]. unfold join_private_schema.
    assert (forall o : option string, option_eqb String.eqb o o = true) as O by (intros [c|]; [apply String.eqb_refl|reflexivity]).
    rewrite <- Id, <- Sp, !O. cbn [negb raise_if bind].
    destruct (join_accepted l r on (sc_space l) "inner" Nl Nr El Er Gr Ne Ty Nj Ij) as (-> & H). exact H.
  - intros p how R. cbn [schema_of]. rewrite L. cbn [bind]. unfold join_public_schema. rewrite R. cbn [bind].
    destruct (join_accepted l r on (sc_space l) how Nl Nr El Er Gr Ne Ty Nj Ij) as (-> & H). exact H.
Qed.
Print Assumptions C23_other_joins_accepted.

Example C23_case :
  let l := sch0 [("id", dsc VARCHAR false false false); ("day", dsc VARCHAR true false false); ("n", dsc INTEGER true false false)] (Some "id") in
  let r := sch0 [("n", dsc INTEGER false false false); ("id", dsc VARCHAR true false false); ("m", dsc INTEGER false false false)] (Some "id") in
  let cat := cat0 [("l", l, [], []); ("r", r, [], [])] [] in
  (exists s, schema_of (fun _ _ => true) cat (JoinPrivate (PrivateSource "l") (PrivateSource "r") None None (Some ["id"])) = Ok s
     /\ sc_cols s = [("id", dsc VARCHAR false false false); ("day", dsc VARCHAR true false false); ("n_left", dsc INTEGER true false false);
                     ("n_right", dsc INTEGER false false false); ("m", dsc INTEGER false false false)])
  /\ schema_of (fun _ _ => true) (cat0 [("l", sch0 (sc_cols l ++ [("n_right", dsc INTEGER false false false)])%list (Some "id"), [], []); ("r", r, [], [])] [])
       (JoinPrivate (PrivateSource "l") (PrivateSource "r") None None (Some ["id"])) = Err ValueError.
Proof. split; [eexists; split; reflexivity|reflexivity]. Qed.

Example C23_grouping_case :
  let t g := {| sc_cols := [("a", dsc VARCHAR false false false); ("b", dsc VARCHAR false false false)]; sc_group := g; sc_id := None; sc_space := None |} in
  let cat := cat0 [("l", t (Some "a"), [], []); ("r", t (Some "b"), [], []); ("p", t None, [], [])] [] in
  let join x y := schema_of (fun _ _ => true) cat (JoinPrivate (PrivateSource x) (PrivateSource y) None None (Some ["a"; "b"])) in
  join "l" "r" = Err ValueError /\ join "l" "p" = Ok (t (Some "a")) /\ join "p" "r" = Ok (t (Some "b")) /\ join "l" "l" = Ok (t (Some "a")).
Proof. repeat split; reflexivity. Qed.

(** ** C24: privacy IDs *)

(** A table query that is accepted has, for each private table it reads, an ID column
    exactly when that table has one, of the same ID space. *)
Theorem C24_id_column_kept : forall cond_ok cat q s,
  is_table q ->
  (forall n s0 cs i, dget n (cat_private cat) = Some (s0, cs) -> sc_id s0 = Some i -> In i (dkeys (sc_cols s0))) ->
  schema_of cond_ok cat q = Ok s ->
  forall n, In n (sources q) -> exists s0 cs, dget n (cat_private cat) = Some (s0, cs) /\ keeps_id s0 s.
Proof.
  intros cond_ok cat q s T Wf H n I.
  pose proof (schema_keeps_id {| w_cond_ok := cond_ok; w_cond_holds := fun _ _ => true; w_row_order := rec_order;
                                 w_key_order := fun _ => value_order |} cat q s T H) as F.
  rewrite Forall_forall in F. destruct (F n I) as (s0 & cs & E & K). exists s0, cs. split; [exact E|]. apply K.
  intros i Ei. exact (Wf n s0 cs i E Ei).
Qed.
Print Assumptions C24_id_column_kept.

(** The IDs of the result are IDs of the inputs. *)
Theorem C24_no_new_ids : forall W l2 cat data auto q0 q s t cs i r,
  inputs_ok l2 cat data -> build auto q0 = Ok q -> promises W l2 cat data q -> finite_ids W l2 cat data q ->
  schema_of (w_cond_ok W) cat q = Ok s -> visit W l2 cat data q = Ok (t, cs) -> v_place t = PKeys i -> In r (v_rows t) ->
  exists n t0 i0 r0, dget n data = Some t0 /\ v_coll t0 = v_coll t /\ v_place t0 = PKeys i0 /\ In r0 (v_rows t0)
    /\ getv i0 r0 = getv i r.
Proof. intros W l2 cat data auto q0 q s t cs i r IN B. exact (no_new_ids W l2 cat data IN auto q s t cs i r (build_built auto q0 q B)). Qed.
Print Assumptions C24_no_new_ids.

(** Nothing is moved from one ID to another: dropping the rows of some IDs from the inputs
    drops exactly the rows of those IDs from the result. *)
Theorem C24_ids_do_not_mix : forall W l2 cat data k keep auto q0 q s t cs,
  inputs_ok l2 cat data -> build auto q0 = Ok q -> promises W l2 cat data q -> finite_ids W l2 cat data q ->
  schema_of (w_cond_ok W) cat q = Ok s -> visit W l2 cat data q = Ok (t, cs) ->
  visit W l2 cat (restrict_all k keep data) q = Ok (restrict k keep t, cs).
Proof.
  intros W l2 cat data k keep auto q0 q s t cs IN B P F S V.
  exact (visit_restrict W l2 cat data IN k keep auto q (build_built auto q0 q B) P F s t cs S V).
Qed.
Print Assumptions C24_ids_do_not_mix.

(** So two datasets that differ only in the rows of some IDs give results that differ only
    in the rows of those IDs. *)
Theorem C24_other_ids_unaffected : forall W l2 cat data data' k keep auto q0 q s t cs t' cs',
  inputs_ok l2 cat data -> inputs_ok l2 cat data' ->
  (forall n, dget n (restrict_all k keep data) = dget n (restrict_all k keep data')) ->
  build auto q0 = Ok q -> promises W l2 cat data q -> promises W l2 cat data' q ->
  finite_ids W l2 cat data q -> finite_ids W l2 cat data' q ->
  schema_of (w_cond_ok W) cat q = Ok s ->
  visit W l2 cat data q = Ok (t, cs) -> visit W l2 cat data' q = Ok (t', cs') ->
  restrict k keep t = restrict k keep t' /\ cs = cs'.
Proof.
  intros W l2 cat data data' k keep auto q0 q s t cs t' cs' I1 I2 E B.
  exact (outside_ids W l2 cat data data' k keep auto q s t cs t' cs' I1 I2 E (build_built auto q0 q B)).
Qed.
Print Assumptions C24_other_ids_unaffected.

Example C24_case :
  build false pipeline = Ok pq /\ is_table pq /\ schema_of (w_cond_ok W0) pcat pq = Ok ps
  /\ visit W0 false pcat pdata pq = Ok (pt, [MaxRowsPerID 4]) /\ finite_ids W0 false pcat pdata pq
  /\ v_coll pt = Some "people" /\ length (v_rows pt) = 2
  /\ exists t', visit W0 false pcat (restrict_all (Some "people") (fun i => value_eqb i (VStr "b")) pdata) pq = Ok (t', [MaxRowsPerID 4])
         /\ v_rows t' = [].
Proof.
  split; [apply C19_case|]. split; [exact I|]. split; [apply C19_case|]. split; [exact ptab|]. split; [exact I|].
  split; [reflexivity|]. split; [reflexivity|].
  exists {| v_dom := v_dom pt; v_coll := v_coll pt; v_place := v_place pt; v_rows := [] |}. split; [vm_compute|]; reflexivity.
Qed.

(** Without the assumption on infinite IDs the claim is false: ReplaceInfinity without
    columns also replaces infinite IDs of a float ID column by 0, and an accepted query can
    so attribute one ID's row to another.  (The mismatch check catches this on its own, but
    not after a join with a table whose ID column never holds infinities.) *)
Theorem C24_infinite_ids_merged_refuted : exists W cat data q t cs i r,
  inputs_ok false cat data /\ build false q = Ok q /\ promises W false cat data q
  /\ build_transformation W false cat data q = Ok (t, cs) /\ v_place t = PKeys i /\ In r (v_rows t)
  /\ getv "x" r = VInt 1 /\ getv i r = VFloat (z_to_f 0)
  /\ (forall n t0 i0 r0, dget n data = Some t0 -> v_place t0 = PKeys i0 -> In r0 (v_rows t0) -> getv "x" r0 = VInt 1 ->
        getv i0 r0 = VFloat FPInf).
Proof.
  set (l := [("l", sch0 [("id", dsc DECIMAL false false true); ("x", dsc INTEGER false false false)] (Some "id"), @nil constraint,
              [[("id", VFloat FPInf); ("x", VInt 1)]]);
             ("r", sch0 [("id", dsc DECIMAL false false false)] (Some "id"), [], [[("id", VFloat (z_to_f 0))]])]).
  exists W0, (cat0 l []), (data0 l), (JoinPrivate (ReplaceInfinity (PrivateSource "l") []) (PrivateSource "r") None None (Some ["id"])).
  eexists _, _, "id", _. split; [apply inputs0_ok; reflexivity|]. split; [reflexivity|]. split; [cbn; repeat split; constructor|].
  split; [reflexivity|]. split; [reflexivity|]. split; [left; reflexivity|]. split; [reflexivity|]. split; [reflexivity|].
  intros n t0 i0 r0 D. unfold data0, l in D. cbn [map fst snd dget] in D.
  destruct (String.eqb n "l"); [|destruct (String.eqb n "r"); [|discriminate]]; injection D as <-; cbn [tab0 sch0 sc_id v_place v_rows];
    intros [= <-] [<-|[]] X; [reflexivity|discriminate].
Qed.
Print Assumptions C24_infinite_ids_merged_refuted.

(** ** C43: left public joins *)

(** On tables without IDs a left join keeps every private row: each one gives one output row
    per public row it agrees with on the join columns, or one with nulls if there is none. *)
Theorem C43_left_join_keeps_rows_partial : forall W l2 cat data q p on t cs t' cs' f pd,
  visit W l2 cat data q = Ok (t, cs) -> (forall i, v_place t <> PKeys i) ->
  visit W l2 cat data (JoinPublic q p on "left") = Ok (t', cs') ->
  public_frame cat p = Ok f -> spark_schema_to_analytics_columns (sd_fields f) = Ok pd ->
  let L := dkeys (v_dom t) in
  let R := dkeys pd in
  let J := match on with Some c => c | None => filter (fun c => smem c R) L end in
  exists F, v_rows t' = flat_map F (v_rows t)
    /\ forall r, In r (v_rows t) ->
         let agreeing := filter (fun y => forallb (fun c => value_eqb (getv c r) (getv c y)) J) (frame_rows f) in
         length (F r) = Nat.max 1 (length agreeing)
         /\ forall o, In o (F r) ->
              (forall c, In c J -> getv c o = getv c r)
              /\ (forall c, In c L -> ~ In c J -> getv (out_name R "_left" c) o = getv c r)
              /\ ((agreeing = [] /\ forall c, In c R -> ~ In c J -> getv (out_name L "_right" c) o = VNull)
                  \/ exists y, In y agreeing /\ forall c, In c R -> ~ In c J -> getv (out_name L "_right" c) o = getv c y).
Proof.
  intros W l2 cat data q p on t cs t' cs' f pd V NK H Fr Sp L R J. cbn [visit] in H. rewrite V in H. cbn [bind] in H.
  unfold visit_join_public in H. rewrite Fr in H. cbn [bind] in H. rewrite Sp in H. cbn [bind] in H. inv_ok H.
  apply mk_schema_ok in E. destruct E as (_ & _ & _ & ->). cbn [String.eqb Ascii.eqb Bool.eqb andb] in H. rewrite andb_true_r in H.
  assert (in_collection (v_place t) = false) as K by (destruct (v_place t); try reflexivity; exfalso; eapply NK; reflexivity).
  rewrite K in H. cbn [negb] in H. inv_ok H. inv_ok H. injection H as <- <-. cbn [v_rows].
  set (dom := analytics_to_core _) in *. set (cols := join_columns on (v_dom t) dom) in *.
  assert (KR : dkeys dom = R) by (unfold dom, analytics_to_core, R, dkeys; cbn [sc_cols]; rewrite map_map; reflexivity).
  assert (EJ : cols = J).
  { unfold cols, J, join_columns. destruct on as [c|]; [reflexivity|]. unfold common_columns. apply filter_ext. intros c.
    rewrite <- KR. symmetry. apply smem_dkeys. }
  pose proof (join_domain_spec _ _ _ _ _ E) as JD.
  assert (ND : forall a b, NoDup (dkeys (join_row cols (dkeys (v_dom t)) (dkeys dom) a b))).
  { intros a b. rewrite (join_row_keys _ _ _ _ _ a b JD). destruct JD; assumption. }
  assert (Nm : forall other suffix c, out_name other suffix c = suffixed_name other suffix c).
  { intros other suffix c. unfold out_name, suffixed_name. destruct (in_dec string_dec c other) as [I|N].
    - apply smem_In in I. rewrite I. reflexivity.
    - apply smem_false in N. rewrite N. reflexivity. }
  exists (fun x => match filter (matches cols x) (frame_rows f) with
                     | [] => [join_row cols (dkeys (v_dom t)) (dkeys dom) x None]
                     | ys => map (fun y => join_row cols (dkeys (v_dom t)) (dkeys dom) x (Some y)) ys end).
  split; [reflexivity|]. intros r Ir.
  set (agreeing := filter (fun y => forallb (fun c => value_eqb (getv c r) (getv c y)) J) (frame_rows f)).
  assert (EA : filter (matches cols r) (frame_rows f) = agreeing) by (rewrite EJ; reflexivity).
  rewrite EA. rewrite KR, EJ in ND. rewrite KR, EJ. fold L in ND |- *.
  assert (Lf : forall o b, o = join_row J L R r b -> (forall c, In c J -> getv c o = getv c r)
              /\ (forall c, In c L -> ~ In c J -> getv (out_name R "_left" c) o = getv c r)).
  { intros o b ->. split; [intros c Ic; apply getv_join_on, Ic|]. intros c Ic Nc. rewrite Nm. apply getv_join_col_left; auto. }
  destruct agreeing as [|y0 ys] eqn:Ea.
  - split; [reflexivity|]. intros o [<-|[]]. destruct (Lf _ None eq_refl) as [A B]. split; [exact A|]. split; [exact B|]. left.
    split; [reflexivity|]. intros c Ic Nc. rewrite Nm. apply getv_dget. apply In_dget; [apply ND|]. unfold join_row.
    apply in_or_app. right. apply in_or_app. right. apply in_map_iff. exists c. split; [reflexivity|]. apply filter_In.
    split; [exact Ic|apply negb_true_iff, smem_false, Nc].
  - split; [rewrite map_length; simpl; lia|]. intros o Io. apply in_map_iff in Io. destruct Io as (y & <- & Iy).
    destruct (Lf _ (Some y) eq_refl) as [A B]. split; [exact A|]. split; [exact B|]. right. exists y. split; [exact Iy|].
    intros c Ic Nc. rewrite Nm. apply getv_join_col_right; auto.
Qed.
Print Assumptions C43_left_join_keeps_rows_partial.

Example C43_case :
  let s := sch0 [("grp", dsc VARCHAR true false false); ("n", dsc INTEGER false false false)] None in
  let l := [("t", s, @nil constraint, [[("grp", VStr "x"); ("n", VInt 1)]; [("grp", VStr "q"); ("n", VInt 2)]])] in
  exists q t cs, build false (JoinPublic (PrivateSource "t") (PubFrame codes_frame) None "left") = Ok q
    /\ build_transformation W0 false (cat0 l []) (data0 l) q = Ok (t, cs)
    /\ v_rows t = [[("grp", VStr "x"); ("n", VInt 1); ("x", VInt 7)]; [("grp", VStr "x"); ("n", VInt 1); ("x", VInt 8)];
                   [("grp", VStr "q"); ("n", VInt 2); ("x", VNull)]].
Proof. eexists _, _, _. repeat split. Qed.

(** On tables with IDs "left" is ignored: the rows are those of an inner join. *)
Theorem C43_left_is_inner_on_ids : forall W l2 cat data q p on t cs i,
  visit W l2 cat data q = Ok (t, cs) -> v_place t = PKeys i ->
  visit W l2 cat data (JoinPublic q p on "left") = visit W l2 cat data (JoinPublic q p on "inner").
Proof. intros W l2 cat data q p on t cs i V P. cbn [visit]. rewrite V. cbn [bind]. unfold visit_join_public. rewrite P. reflexivity. Qed.
Print Assumptions C43_left_is_inner_on_ids.

(** Usually the mismatch check then raises an internal error, but when the public columns are
    nullable the query is accepted and unmatched private rows disappear. *)
Theorem C43_left_join_on_ids_refuted : exists W cat data q0 q t t' cs cs' r,
  inputs_ok false cat data /\ build false (JoinPublic q0 (PubFrame codes_frame) None "left") = Ok q
  /\ visit W false cat data q0 = Ok (t, cs) /\ In r (v_rows t)
  /\ build_transformation W false cat data q = Ok (t', cs') /\ v_rows t' = [].
Proof.
  set (s := sch0 [("id", dsc VARCHAR false false false); ("grp", dsc VARCHAR false false false)] (Some "id")).
  set (l := [("t", s, @nil constraint, [[("id", VStr "a"); ("grp", VStr "q")]])]).
  exists W0, (cat0 l []), (data0 l), (PrivateSource "t"). eexists _, _, _, _, _, _.
  split; [apply inputs0_ok; reflexivity|]. split; [reflexivity|]. split; [reflexivity|]. split; [left; reflexivity|]. split; reflexivity.
Qed.
Print Assumptions C43_left_join_on_ids_refuted.
