(** Comparing queries: == on query expressions and Query._is_equivalent.  Models the
    (generated and explicit) __eq__ methods of _query_expr.py, query_builder.py 92-149, and
    what __hash__ covers.

    Query.v has queries as values.  Here they are objects: a user's function has an address
    and (usually) bytecode, a data frame has an address, a key set is a KeySet object.
    [erase] gives the query an object stands for. *)
From Coq Require Import String Bool Arith ZArith QArith Qcanon Lia Permutation List.
From Verif Require Import Prelude Value Rows Constraints Schema Query Transform.
From Verif Require KeySet.
Import ListNotations.
Local Open Scope string_scope.
Local Open Scope nat_scope.

(** A callable: its address, and its __code__.co_code if it has one (functions do; bound
    partials, builtins and instances with __call__ do not). *)
Record pyfun : Type := { pf_addr : nat; pf_code : option nat }.
Inductive xkeys : Type := XSet (k : KeySet.keyset) | XCols (l : list string).
Inductive xpub : Type := XName (s : string) | XFrame (addr : nat) (f : sframe).

Inductive qx : Type :=
| XSource (s : string)
| XGetGroups (c : qx) (columns : list string)
| XGetBounds (c : qx) (k : xkeys) (measure lower upper : string)
| XRename (c : qx) (m : dict string)
| XFilter (c : qx) (condition : string)
| XSelect (c : qx) (columns : list string)
| XMap (c : qx) (f : pyfun) (new : schema) (augment : bool)
| XFlatMap (c : qx) (f : pyfun) (new : schema) (augment : bool) (max_rows : option Z)
| XFlatMapByID (c : qx) (f : pyfun) (new : schema)
| XJoinPrivate (l r : qx) (tl tr : option strategy) (on : option (list string))
| XJoinPublic (c : qx) (p : xpub) (on : option (list string)) (how : string)
| XReplaceNull (c : qx) (rw : dict value)
| XReplaceInf (c : qx) (rw : dict (fnum * fnum))
| XDropNull (c : qx) (columns : list string)
| XDropInf (c : qx) (columns : list string)
| XEnforce (c : qx) (k : constraint)
| XCount (c : qx) (k : xkeys) (out : string) (m : mech) (co : option coremech)
| XCountDistinct (c : qx) (k : xkeys) (columns : list string) (out : string) (m : mech) (co : option coremech)
| XQuantile (c : qx) (k : xkeys) (measure : string) (q : fnum) (lo hi : pynum) (out : string)
| XBounded (kd : bkind) (c : qx) (k : xkeys) (measure : string) (lo hi : pynum) (out : string) (m : mech) (co : option coremech)
| XSuppress (c : qx) (column : string) (threshold : pynum).

(** ** What an object stands for *)
Section Erase.
(** The data frames behind KeySets, and what the callables do, by address. *)
Variable KW : KeySet.world.
Record functions : Type := { f_row : nat -> rec -> rec; f_rows : nat -> rec -> list rec; f_group : nat -> list rec -> list rec }.
Variable F : functions.

Definition erase_keys (k : xkeys) : res gkeys :=
  match k with
  | XCols l => Ok (KCols l)
  | XSet k =>
      match KeySet.ks_cols k with
      | [] => Ok (KSet [] [])
      | _ => let* s := KeySet.ks_schema k in
             let* f := KeySet.ks_dataframe KW k in
             Ok (KSet s (map (combine (fcols f)) (frows f)))
      end
  end.
Definition erase_pub (p : xpub) : pubtable := match p with XName s => PubName s | XFrame _ f => PubFrame f end.
Fixpoint erase (q : qx) : res query :=
  match q with
  | XSource s => Ok (PrivateSource s)
  | XGetGroups c l => let* c := erase c in Ok (GetGroups c l)
  | XGetBounds c k m a b => let* c := erase c in let* k := erase_keys k in Ok (GetBounds c k m a b)
  | XRename c m => let* c := erase c in Ok (Rename c m)
  | XFilter c s => let* c := erase c in Ok (Filter c s)
  | XSelect c l => let* c := erase c in Ok (Select c l)
  | XMap c f n a => let* c := erase c in Ok (MapQ c (f_row F (pf_addr f)) n a)
  | XFlatMap c f n a mr => let* c := erase c in Ok (FlatMap c (f_rows F (pf_addr f)) n a mr)
  | XFlatMapByID c f n => let* c := erase c in Ok (FlatMapByID c (f_group F (pf_addr f)) n)
  | XJoinPrivate l r tl tr on => let* l := erase l in let* r := erase r in Ok (JoinPrivate l r tl tr on)
  | XJoinPublic c p on how => let* c := erase c in Ok (JoinPublic c (erase_pub p) on how)
  | XReplaceNull c rw => let* c := erase c in Ok (ReplaceNullAndNan c rw)
  | XReplaceInf c rw => let* c := erase c in Ok (ReplaceInfinity c rw)
  | XDropNull c l => let* c := erase c in Ok (DropNullAndNan c l)
  | XDropInf c l => let* c := erase c in Ok (DropInfinity c l)
  | XEnforce c k => let* c := erase c in Ok (EnforceConstraint c k)
  | XCount c k o m co => let* c := erase c in let* k := erase_keys k in Ok (GroupByCount c k o m co)
  | XCountDistinct c k l o m co => let* c := erase c in let* k := erase_keys k in Ok (GroupByCountDistinct c k l o m co)
  | XQuantile c k m qu lo hi o => let* c := erase c in let* k := erase_keys k in Ok (GroupByQuantile c k m qu lo hi o)
  | XBounded kd c k m lo hi o me co => let* c := erase c in let* k := erase_keys k in Ok (GroupByBounded kd c k m lo hi o me co)
  | XSuppress c l t => let* c := erase c in Ok (SuppressAggregates c l t)
  end.
End Erase.

(** ** Python's == on the attributes *)

Definition f_eqb (a b : fnum) : bool :=
  match a, b with
  | FFin x, FFin y => if Qc_eq_dec x y then true else false
  | FPInf, FPInf | FNInf, FNInf => true
  | _, _ => false
  end.
(** Numbers: an int may equal a float. *)
Definition num_eqb (a b : pynum) : bool :=
  match a, b with PInt x, PInt y => Z.eqb x y | _, _ => f_eqb (to_float a) (to_float b) end.
(** Replacement values. *)
Definition py_eqb (a b : value) : bool :=
  match a, b with
  | VInt x, VFloat y | VFloat y, VInt x => f_eqb (z_to_f x) y
  | VFloat x, VFloat y => f_eqb x y
  | _, _ => value_eqb a b
  end.
Definition strs_eqb : list string -> list string -> bool := list_eqb String.eqb.
(** FrozenDict.__eq__, _schema.py 109-113: pairs in order.  (Schema.__eq__ is [schema_eq]:
    it ignores the order of columns.) *)
Definition frozen_eqb {V} (veq : V -> V -> bool) (a b : dict V) : bool :=
  list_eqb (fun p q => String.eqb (fst p) (fst q) && veq (snd p) (snd q)) a b.
Definition strategy_eqb (a b : strategy) : bool :=
  match a, b with DropExcess n, DropExcess m => Nat.eqb n m | DropNonUnique, DropNonUnique => true | _, _ => false end.
Definition constraint_eqb (a b : constraint) : bool :=
  match a, b with
  | MaxRowsPerID m, MaxRowsPerID n => Nat.eqb m n
  | MaxGroupsPerID g m, MaxGroupsPerID h n | MaxRowsPerGroupPerID g m, MaxRowsPerGroupPerID h n => String.eqb g h && Nat.eqb m n
  | _, _ => false
  end.
Definition mech_eqb (a b : mech) : bool :=
  match a, b with MDefault, MDefault | MLaplace, MLaplace | MGaussian, MGaussian => true | _, _ => false end.
Definition core_eqb (a b : coremech) : bool :=
  match a, b with
  | CLaplace, CLaplace | CGeometric, CGeometric | CDiscreteGaussian, CDiscreteGaussian | CGaussian, CGaussian => true
  | _, _ => false end.
Definition kind_eqb (a b : bkind) : bool :=
  match a, b with BSum, BSum | BAverage, BAverage | BVariance, BVariance | BStdev, BStdev => true | _, _ => false end.
Definition both_of (a b : res bool) : res bool := let* x := a in if x then b else Ok false.
Notation "a &&& b" := (both_of a b) (at level 40, left associativity).

(** self.f != other.f and self.f.__code__.co_code != other.f.__code__.co_code, 553, 677, 752:
    evaluated only when the callables are different objects. *)
Definition fun_eq (f g : pyfun) : res bool :=
  if Nat.eqb (pf_addr f) (pf_addr g) then Ok true
  else match pf_code f, pf_code g with
       | Some a, Some b => Ok (Nat.eqb a b)
       | _, _ => Err AttributeError
       end.

(** JoinPublic.__eq__ on two tables, 1018-1045.  pandas' comparison of two non-empty tables,
    with the columns in one order and the rows sorted, is taken to be equality of the bags of
    rows. *)
Definition names (f : sframe) : list string := map sf_name (sd_fields f).
Definition arranged (cols : list string) (f : sframe) : table := map (select_row cols) (frame_rows f).
Definition bag_eqb (a b : table) : bool :=
  forallb (fun r => Nat.eqb (occurs a r) (occurs b r)) (a ++ b)%list.
Definition same_names (a b : list string) : bool :=
  forallb (fun c => Nat.eqb (count_occ String.string_dec a c) (count_occ String.string_dec b c)) (a ++ b)%list.
Definition is_empty_frame (f : sframe) : bool := match sd_rows f, sd_fields f with [], _ => true | _, [] => true | _, _ => false end.
Definition pub_eq (p q : xpub) : bool :=
  match p, q with
  | XName a, XName b => String.eqb a b
  | XFrame _ f, XFrame _ g =>
      same_names (names f) (names g)
      && (if negb (is_empty_frame f) && negb (is_empty_frame g)
          then bag_eqb (arranged (names f) f) (arranged (names f) g) else true)
  | _, _ => false
  end.

Section Eq.
Variable KW : KeySet.world.

(** KeySet.__eq__ or tuple.__eq__; a KeySet is not equal to a tuple. *)
Definition keys_eq (a b : xkeys) : res bool :=
  match a, b with
  | XSet a, XSet b => KeySet.ks_eq KW a b
  | XCols a, XCols b => Ok (strs_eqb a b)
  | _, _ => Ok false
  end.

(** == : dataclasses of different classes are not equal; of the same class, all fields must
    be equal.  The four bounded aggregations are different classes. *)
Fixpoint qx_eq (a b : qx) {struct a} : res bool :=
  match a, b with
  | XSource s, XSource s' => Ok (String.eqb s s')
  | XGetGroups c l, XGetGroups c' l' => qx_eq c c' &&& Ok (strs_eqb l l')
  | XGetBounds c k m x y, XGetBounds c' k' m' x' y' =>
      qx_eq c c' &&& keys_eq k k' &&& Ok (String.eqb m m' && String.eqb x x' && String.eqb y y')
  | XRename c m, XRename c' m' => qx_eq c c' &&& Ok (frozen_eqb String.eqb m m')
  | XFilter c s, XFilter c' s' => qx_eq c c' &&& Ok (String.eqb s s')
  | XSelect c l, XSelect c' l' => qx_eq c c' &&& Ok (strs_eqb l l')
  | XMap c f n g, XMap c' f' n' g' =>                                                    (* 545-559 *)
      fun_eq f f' &&& Ok (schema_eq n n' && Bool.eqb g g') &&& qx_eq c c'
  | XFlatMap c f n g mr, XFlatMap c' f' n' g' mr' =>                                     (* 669-684 *)
      fun_eq f f' &&& Ok (option_eqb Z.eqb mr mr' && schema_eq n n' && Bool.eqb g g') &&& qx_eq c c'
  | XFlatMapByID c f n, XFlatMapByID c' f' n' =>                                         (* 744-757 *)
      fun_eq f f' &&& Ok (schema_eq n n') &&& qx_eq c c'
  | XJoinPrivate l r tl tr on, XJoinPrivate l' r' tl' tr' on' =>
      qx_eq l l' &&& qx_eq r r'
      &&& Ok (option_eqb strategy_eqb tl tl' && option_eqb strategy_eqb tr tr' && option_eqb strs_eqb on on')
  | XJoinPublic c p on how, XJoinPublic c' p' on' how' =>                                (* 1005-1050 *)
      Ok (pub_eq p p') &&& Ok (option_eqb strs_eqb on on') &&& qx_eq c c' &&& Ok (String.eqb how how')
  | XReplaceNull c rw, XReplaceNull c' rw' => qx_eq c c' &&& Ok (frozen_eqb py_eqb rw rw')
  | XReplaceInf c rw, XReplaceInf c' rw' =>
      qx_eq c c' &&& Ok (frozen_eqb (fun p q => f_eqb (fst p) (fst q) && f_eqb (snd p) (snd q)) rw rw')
  | XDropNull c l, XDropNull c' l' | XDropInf c l, XDropInf c' l' => qx_eq c c' &&& Ok (strs_eqb l l')
  | XEnforce c k, XEnforce c' k' => qx_eq c c' &&& Ok (constraint_eqb k k')
  | XCount c k o m co, XCount c' k' o' m' co' =>
      qx_eq c c' &&& keys_eq k k' &&& Ok (String.eqb o o' && mech_eqb m m' && option_eqb core_eqb co co')
  | XCountDistinct c k l o m co, XCountDistinct c' k' l' o' m' co' =>
      qx_eq c c' &&& keys_eq k k' &&& Ok (strs_eqb l l' && String.eqb o o' && mech_eqb m m' && option_eqb core_eqb co co')
  | XQuantile c k m q lo hi o, XQuantile c' k' m' q' lo' hi' o' =>
      qx_eq c c' &&& keys_eq k k'
      &&& Ok (String.eqb m m' && f_eqb q q' && num_eqb lo lo' && num_eqb hi hi' && String.eqb o o')
  | XBounded kd c k m lo hi o me co, XBounded kd' c' k' m' lo' hi' o' me' co' =>
      Ok (kind_eqb kd kd')
      &&& qx_eq c c' &&& keys_eq k k'
      &&& Ok (String.eqb m m' && num_eqb lo lo' && num_eqb hi hi' && String.eqb o o' && mech_eqb me me' && option_eqb core_eqb co co')
  | XSuppress c l t, XSuppress c' l' t' => qx_eq c c' &&& Ok (String.eqb l l' && num_eqb t t')
  | _, _ => Ok false
  end.

(** ** _query_expr_recursive_equivalence, query_builder.py 92-110 *)

(** The attributes of an expression that are not expressions, by name and in order of the
    fields.  Mechanisms belong to the class of the aggregation. *)
Inductive attr : Type :=
| AStr (s : string) | AStrs (l : option (list string)) | AKeys (k : xkeys) | ADict (d : dict string) | AFun (f : pyfun)
| ASchema (s : schema) | ABool (b : bool) | ALimit (z : option Z) | AStrategy (s : option strategy) | APub (p : xpub)
| ANulls (d : dict value) | AInfs (d : dict (fnum * fnum)) | AConstraint (c : constraint)
| AMech (class : nat) (m : mech) | ACore (c : option coremech) | ANum (x : pynum).
Definition class_of_kind (kd : bkind) : nat := match kd with BSum => 2 | BAverage => 3 | BVariance => 4 | BStdev => 5 end.
Definition attrs (q : qx) : list (string * attr) :=
  match q with
  | XSource s => [("source_id", AStr s)]
  | XGetGroups _ l | XSelect _ l | XDropNull _ l | XDropInf _ l => [("columns", AStrs (Some l))]
  | XGetBounds _ k m x y =>
      [("groupby_keys", AKeys k); ("measure_column", AStr m); ("lower_bound_column", AStr x); ("upper_bound_column", AStr y)]
  | XRename _ m => [("column_mapper", ADict m)]
  | XFilter _ s => [("condition", AStr s)]
  | XMap _ f n g => [("f", AFun f); ("schema_new_columns", ASchema n); ("augment", ABool g)]
  | XFlatMap _ f n g mr => [("f", AFun f); ("schema_new_columns", ASchema n); ("augment", ABool g); ("max_rows", ALimit mr)]
  | XFlatMapByID _ f n => [("f", AFun f); ("schema_new_columns", ASchema n)]
  | XJoinPrivate _ _ tl tr on =>
      [("truncation_strategy_left", AStrategy tl); ("truncation_strategy_right", AStrategy tr); ("join_columns", AStrs on)]
  | XJoinPublic _ p on how => [("public_table", APub p); ("join_columns", AStrs on); ("how", AStr how)]
  | XReplaceNull _ rw => [("replace_with", ANulls rw)]
  | XReplaceInf _ rw => [("replace_with", AInfs rw)]
  | XEnforce _ k => [("constraint", AConstraint k)]
  | XCount _ k o m co => [("groupby_keys", AKeys k); ("output_column", AStr o); ("mechanism", AMech 0 m); ("core_mechanism", ACore co)]
  | XCountDistinct _ k l o m co =>
      [("groupby_keys", AKeys k); ("columns_to_count", AStrs (Some l)); ("output_column", AStr o); ("mechanism", AMech 1 m);
       ("core_mechanism", ACore co)]
  | XQuantile _ k m q lo hi o =>
      [("groupby_keys", AKeys k); ("measure_column", AStr m); ("quantile", ANum (PFloat q)); ("low", ANum lo); ("high", ANum hi);
       ("output_column", AStr o)]
  | XBounded kd _ k m lo hi o me co =>
      [("groupby_keys", AKeys k); ("measure_column", AStr m); ("low", ANum lo); ("high", ANum hi);
       ("output_column", AStr o); ("mechanism", AMech (class_of_kind kd) me); ("core_mechanism", ACore co)]
  | XSuppress _ l t => [("column", AStr l); ("threshold", ANum t)]
  end.
(** Its expressions. *)
Definition kids (q : qx) : list (string * qx) :=
  match q with
  | XSource _ => []
  | XJoinPrivate l r _ _ _ => [("left_child", l); ("right_child", r)]
  | XGetGroups c _ | XGetBounds c _ _ _ _ | XRename c _ | XFilter c _ | XSelect c _ | XMap c _ _ _ | XFlatMap c _ _ _ _
  | XFlatMapByID c _ _ | XJoinPublic c _ _ _ | XReplaceNull c _ | XReplaceInf c _ | XDropNull c _ | XDropInf c _
  | XEnforce c _ | XCount c _ _ _ _ | XCountDistinct c _ _ _ _ _ | XQuantile c _ _ _ _ _ _ | XBounded _ c _ _ _ _ _ _ _
  | XSuppress c _ _ => [("child", c)]
  end.
(** not (val != other): callables and data frames are compared by identity here. *)
Definition attr_eqb (a b : attr) : bool :=
  match a, b with
  | AStr x, AStr y => String.eqb x y
  | AStrs x, AStrs y => option_eqb strs_eqb x y
  | AKeys (XCols x), AKeys (XCols y) => strs_eqb x y
  | ADict x, ADict y => frozen_eqb String.eqb x y
  | AFun f, AFun g => Nat.eqb (pf_addr f) (pf_addr g)
  | ASchema x, ASchema y => schema_eq x y
  | ABool x, ABool y => Bool.eqb x y
  | ALimit x, ALimit y => option_eqb Z.eqb x y
  | AStrategy x, AStrategy y => option_eqb strategy_eqb x y
  | APub (XName x), APub (XName y) => String.eqb x y
  | APub (XFrame x _), APub (XFrame y _) => Nat.eqb x y
  | ANulls x, ANulls y => frozen_eqb py_eqb x y
  | AInfs x, AInfs y => frozen_eqb (fun p q => f_eqb (fst p) (fst q) && f_eqb (snd p) (snd q)) x y
  | ANulls [], AInfs [] | AInfs [], ANulls [] => true
  | AConstraint x, AConstraint y => constraint_eqb x y
  | AMech i x, AMech j y => Nat.eqb i j && mech_eqb x y
  | ACore x, ACore y => option_eqb core_eqb x y
  | ANum x, ANum y => num_eqb x y
  | _, _ => false
  end.
Definition attr_equiv (a b : attr) : res bool :=
  match a, b with
  | AKeys (XSet x), AKeys (XSet y) =>
      let* e := KeySet.ks_is_equivalent x y in Ok (match e with Some true => true | _ => false end)
  | AKeys (XSet x), _ => Ok false
  | _, _ => Ok (attr_eqb a b)
  end.
Fixpoint attrs_equiv (l l' : list (string * attr)) : res bool :=
  match l with
  | [] => Ok true
  | (n, x) :: r => match dget n l' with None => Ok false | Some y => attr_equiv x y &&& attrs_equiv r l' end
  end.
(** The expressions come first among the fields. *)
Fixpoint qx_equiv (a b : qx) {struct a} : res bool :=
  Ok (Nat.eqb (length (kids a) + length (attrs a)) (length (kids b) + length (attrs b)))
  &&& match a with
      | XSource _ => Ok true
      | XJoinPrivate l r _ _ _ =>
          match dget "left_child" (kids b) with None => Ok false | Some l' => qx_equiv l l' &&& qx_eq l l' end
          &&& match dget "right_child" (kids b) with None => Ok false | Some r' => qx_equiv r r' &&& qx_eq r r' end
      | XGetGroups c _ | XGetBounds c _ _ _ _ | XRename c _ | XFilter c _ | XSelect c _ | XMap c _ _ _ | XFlatMap c _ _ _ _
      | XFlatMapByID c _ _ | XJoinPublic c _ _ _ | XReplaceNull c _ | XReplaceInf c _ | XDropNull c _ | XDropInf c _
      | XEnforce c _ | XCount c _ _ _ _ | XCountDistinct c _ _ _ _ _ | XQuantile c _ _ _ _ _ _ | XBounded _ c _ _ _ _ _ _ _
      | XSuppress c _ _ =>
          match dget "child" (kids b) with None => Ok false | Some c' => qx_equiv c c' &&& qx_eq c c' end
      end
  &&& attrs_equiv (attrs a) (attrs b).
End Eq.

(** ** Hashes: what the generated __hash__ covers, flattened.  Hashes of equal numbers are
    equal; callables and data frames hash by address, KeySets by their ordered schema. *)
Inductive hashed : Type :=
| HAttr (a : attr) | HKeys (s : dict coldesc) | HAddr (n : nat).
Definition hash_attr (a : attr) : res hashed :=
  match a with
  | AKeys (XSet k) => let* s := KeySet.ks_hash_key k in Ok (HKeys s)
  | AFun f => Ok (HAddr (pf_addr f))
  | APub (XFrame n _) => Ok (HAddr n)
  | ANum (PInt z) => Ok (HAttr (ANum (PFloat (z_to_f z))))
  | ANulls d => Ok (HAttr (ANulls (map (fun p => (fst p, match snd p with VInt z => VFloat (z_to_f z) | v => v end)) d)))
  | _ => Ok (HAttr a)
  end.
Fixpoint hash_key (q : qx) : res (list hashed) :=
  let* l := match q with
            | XSource _ => Ok []
            | XJoinPrivate l r _ _ _ => let* x := hash_key l in let* y := hash_key r in Ok (x ++ y)%list
            | XGetGroups c _ | XGetBounds c _ _ _ _ | XRename c _ | XFilter c _ | XSelect c _ | XMap c _ _ _ | XFlatMap c _ _ _ _
            | XFlatMapByID c _ _ | XJoinPublic c _ _ _ | XReplaceNull c _ | XReplaceInf c _ | XDropNull c _ | XDropInf c _
            | XEnforce c _ | XCount c _ _ _ _ | XCountDistinct c _ _ _ _ _ | XQuantile c _ _ _ _ _ _ | XBounded _ c _ _ _ _ _ _ _
            | XSuppress c _ _ => hash_key c
            end in
  let* m := mapM (fun p => hash_attr (snd p)) (attrs q) in Ok (l ++ m)%list.
