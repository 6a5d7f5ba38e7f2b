(** Schemas, frozen mappings and conversions to and from Spark schemas.  Models
    _schema.py and _coerce_spark_schema.py. *)
From Coq Require Import String Bool Arith ZArith Lia List.
From Verif Require Import Prelude Value.
Import ListNotations.
Local Open Scope string_scope.

(** ** FrozenDict, _schema.py 60-126.  Keys are strings; values are any hashable type
    with Python's == and hash().  typeguard's check of the constructor argument is not
    modelled. *)
Section FrozenDict.
Context {V : Type}.
Variable veq : V -> V -> bool.
(** hash() of a string, of a value, of a pair and of a tuple, given the hashes of the
    parts: a pair and a tuple are hashed from the hashes of their elements only. *)
Variable hash_str : string -> Z.
Variable hash_val : V -> Z.
Variable hash_pair : Z -> Z -> Z.
Variable hash_tuple : list Z -> Z.

(** The only field is the tuple of pairs (80). *)
Record frozen : Type := { elements : list (string * V) }.

(** from_dict, 87-91. *)
Definition from_dict (d : dict V) : frozen := {| elements := d |}.
(** __len__ 93-95, __iter__ 97-100. *)
Definition fd_len (f : frozen) : nat := length (elements f).
Definition fd_iter (f : frozen) : list string := map fst (elements f).
(** __getitem__ 102-107. *)
Fixpoint first_value (k : string) (l : list (string * V)) : res V :=
  match l with
  | [] => Err KeyError
  | (k', v) :: r => if String.eqb k' k then Ok v else first_value k r
  end.
Definition fd_getitem (k : string) (f : frozen) : res V := first_value k (elements f).
(** __eq__ 109-113, for another FrozenDict: tuple equality. *)
Definition fd_eq (a b : frozen) : bool :=
  list_eqb (fun p q => String.eqb (fst p) (fst q) && veq (snd p) (snd q)) (elements a) (elements b).
(** __hash__ 115-117. *)
Definition fd_hash (f : frozen) : Z :=
  hash_tuple (map (fun p => hash_pair (hash_str (fst p)) (hash_val (snd p))) (elements f)).
(** dict(f): Mapping gives keys() and __getitem__. *)
Definition dict_of_frozen (f : frozen) : res (dict V) :=
  let* l := mapM (fun k => let* v := fd_getitem k f in Ok (k, v)) (fd_iter f) in Ok (dict_of l).
(** {**d, **e} and d | e. *)
Definition merge (d e : dict V) : dict V := fold_left (fun acc p => dset (fst p) (snd p) acc) e d.
(** __or__ 119-126, with another dict or FrozenDict given as a dict. *)
Definition fd_or (f : frozen) (d : dict V) : res frozen :=
  let* a := dict_of_frozen f in Ok (from_dict (merge a d)).
End FrozenDict.
Arguments frozen : clear implicits.

(** ** Schema, _schema.py 199-364 *)

(** What a caller may give for a column: a type name, a ColumnType, a ColumnDescriptor. *)
Inductive rawdesc : Type := RName (s : string) | RType (t : ctype) | RDesc (d : coldesc).

(** ColumnType.name and ColumnType[...], 129-177. *)
Definition ctype_name (t : ctype) : string :=
  match t with
  | INTEGER => "INTEGER" | DECIMAL => "DECIMAL" | VARCHAR => "VARCHAR" | DATE => "DATE"
  | TIMESTAMP => "TIMESTAMP"
  end.
Definition all_ctypes : list ctype := [INTEGER; DECIMAL; VARCHAR; DATE; TIMESTAMP].
Definition ctype_named (s : string) : res ctype :=
  match find (fun t => String.eqb (ctype_name t) s) all_ctypes with
  | Some t => Ok t
  | None => Err KeyError
  end.

Record schema : Type := {
  sc_cols : dict coldesc;         (* _column_descs: keys distinct *)
  sc_group : option string;       (* grouping_column *)
  sc_id : option string;          (* id_column *)
  sc_space : option string        (* id_space *)
}.

(** 248-255: the type name of a column. *)
Definition raw_name (r : rawdesc) : string :=
  match r with RName s => s | RType t => ctype_name t | RDesc d => ctype_name (cd_type d) end.
(** 264-281. *)
Definition fill (dn dnan dinf : bool) (r : rawdesc) : res coldesc :=
  match r with
  | RDesc d => Ok d
  | RType t => Ok {| cd_type := t; cd_null := dn; cd_nan := dnan; cd_inf := dinf |}
  | RName s => let* t := ctype_named s in Ok {| cd_type := t; cd_null := dn; cd_nan := dnan; cd_inf := dinf |}
  end.
Definition opt_missing {A} (c : option string) (d : dict A) : bool :=
  match c with Some x => negb (dmem x d) | None => false end.

(** __init__, 206-283.  The argument mapping is a Python dict, so its keys are distinct. *)
Definition Schema_init (cols : dict rawdesc) (group id space : option string) (dn dnan dinf : bool)
  : res schema :=
  let* _ := raise_if (dmem "" cols) ValueError in
  let* _ := raise_if (opt_missing group cols) KeyError in
  let* _ := raise_if (opt_missing id cols) KeyError in
  let* _ := raise_if (negb (forallb (fun p => smem (raw_name (snd p)) (map ctype_name all_ctypes)) cols)) ValueError in
  let* l := mapM (fun p => let* d := fill dn dnan dinf (snd p) in Ok (fst p, d)) cols in
  Ok {| sc_cols := l; sc_group := group; sc_id := id; sc_space := space |}.

(** Schema(column_descs, ...) with descriptors only, as the rest of the library calls it. *)
Definition mk_schema (cols : dict coldesc) (group id space : option string) : res schema :=
  Schema_init (map (fun p => (fst p, RDesc (snd p))) cols) group id space false false false.

(** Python's dict ==: same length, and every key of the first maps to an equal value. *)
Definition dict_eqb {V} (veq : V -> V -> bool) (a b : dict V) : bool :=
  (length a =? length b)%nat
  && forallb (fun p => match dget (fst p) b with Some v => veq (snd p) v | None => false end) a.

(** __eq__, 316-329. *)
Definition schema_eq (a b : schema) : bool :=
  dict_eqb coldesc_eqb (sc_cols a) (sc_cols b)
  && option_eqb String.eqb (sc_group a) (sc_group b)
  && option_eqb String.eqb (sc_id a) (sc_id b)
  && option_eqb String.eqb (sc_space a) (sc_space b).

(** __hash__, 359-364: the hash of the FrozenDict of columns. *)
Definition schema_hash hs hv hp ht (s : schema) : Z := fd_hash hs hv hp ht (from_dict (sc_cols s)).

(** ** Spark schemas *)

(** Spark data types; [OtherT n] stands for every type not listed in _schema.py 367-375. *)
Inductive sparktype : Type :=
| IntegerT | LongT | FloatT | DoubleT | StringT | DateT | TimestampT | OtherT (n : nat).
Record sfield : Type := { sf_name : string; sf_type : sparktype; sf_nullable : bool }.

(** _SPARK_TO_ANALYTICS, 367-375. *)
Definition spark_to_analytics (t : sparktype) : res ctype :=
  match t with
  | IntegerT | LongT => Ok INTEGER
  | DoubleT | FloatT => Ok DECIMAL
  | StringT => Ok VARCHAR
  | DateT => Ok DATE
  | TimestampT => Ok TIMESTAMP
  | OtherT _ => Err KeyError
  end.
(** _ANALYTICS_TO_SPARK, 378-384. *)
Definition analytics_to_spark (t : ctype) : sparktype :=
  match t with
  | INTEGER => LongT | DECIMAL => DoubleT | VARCHAR => StringT | DATE => DateT | TIMESTAMP => TimestampT
  end.

(** analytics_to_spark_schema, 413-424. *)
Definition analytics_to_spark_schema (s : schema) : list sfield :=
  map (fun p => {| sf_name := fst p; sf_type := analytics_to_spark (cd_type (snd p));
                   sf_nullable := cd_null (snd p) |}) (sc_cols s).

(** spark_schema_to_analytics_columns, 446-462: a dict comprehension. *)
Definition spark_schema_to_analytics_columns (fs : list sfield) : res (dict coldesc) :=
  let* l := mapM (fun f =>
    let* t := spark_to_analytics (sf_type f) in
    Ok (sf_name f, {| cd_type := t; cd_null := sf_nullable f;
                      cd_nan := ctype_eqb t DECIMAL; cd_inf := ctype_eqb t DECIMAL |})) fs in
  Ok (dict_of l).

(** tmlt.core's column descriptors: the float descriptor carries allow_nan and
    allow_inf; integer descriptors are 64-bit unless asked otherwise (never here). *)
Inductive coredesc : Type :=
| CFloat (null nan inf : bool)
| CInt (null : bool) | CString (null : bool) | CDate (null : bool) | CTimestamp (null : bool).
(** descriptor.data_type and descriptor.allow_null *)
Definition core_type (d : coredesc) : sparktype :=
  match d with
  | CFloat _ _ _ => DoubleT | CInt _ => LongT | CString _ => StringT | CDate _ => DateT
  | CTimestamp _ => TimestampT
  end.
Definition core_null (d : coredesc) : bool :=
  match d with CFloat n _ _ | CInt n | CString n | CDate n | CTimestamp n => n end.

(** analytics_to_spark_columns_descriptor, 427-443. *)
Definition to_core (d : coldesc) : coredesc :=
  match cd_type d with
  | DECIMAL => CFloat (cd_null d) (cd_nan d) (cd_inf d)
  | INTEGER => CInt (cd_null d)
  | VARCHAR => CString (cd_null d)
  | DATE => CDate (cd_null d)
  | TIMESTAMP => CTimestamp (cd_null d)
  end.
Definition analytics_to_core (s : schema) : dict coredesc :=
  map (fun p => (fst p, to_core (snd p))) (sc_cols s).
(** spark_dataframe_domain_to_analytics_columns, 465-483. *)
Definition of_core (d : coredesc) : res coldesc :=
  match d with
  | CFloat n a i => Ok {| cd_type := DECIMAL; cd_null := n; cd_nan := a; cd_inf := i |}
  | _ => let* t := spark_to_analytics (core_type d) in
         Ok {| cd_type := t; cd_null := core_null d; cd_nan := false; cd_inf := false |}
  end.
Definition core_to_analytics (d : dict coredesc) : res (dict coldesc) :=
  mapM (fun p => let* c := of_core (snd p) in Ok (fst p, c)) d.

(** ** Coercion, _coerce_spark_schema.py *)

(** A data frame as Spark sees it: fields and positional rows of cells. *)
Record sframe : Type := { sd_fields : list sfield; sd_rows : list (list value) }.

(** SUPPORTED_SPARK_TYPES, 20-28. *)
Definition supported (t : sparktype) : bool :=
  match t with OtherT _ => false | _ => true end.
(** TYPE_COERCION_MAP, 31-34. *)
Definition coercion (t : sparktype) : option sparktype :=
  match t with IntegerT => Some LongT | FloatT => Some DoubleT | _ => None end.

(** df.withColumn(name, df[name].cast(ty)): every column with that name is replaced in
    place; df[name] is an error when several columns have the name.  Widening casts
    change no cell.  Spark's case-insensitive resolution is not modelled. *)
Definition with_cast (name : string) (ty : sparktype) (d : sframe) : res sframe :=
  let* _ := raise_if (1 <? count_occ String.string_dec (map sf_name (sd_fields d)) name)%nat ValueError in
  Ok {| sd_fields := map (fun f => if String.eqb (sf_name f) name
                                   then {| sf_name := sf_name f; sf_type := ty; sf_nullable := sf_nullable f |}
                                   else f) (sd_fields d);
        sd_rows := sd_rows d |}.

(** The loop at 69-76 over the fields of the original frame. *)
Fixpoint coerce_loop (fs : list sfield) (d : sframe) : res sframe :=
  match fs with
  | [] => Ok d
  | f :: r =>
      match coercion (sf_type f) with
      | Some ty => let* d' := with_cast (sf_name f) ty d in coerce_loop r d'
      | None => coerce_loop r d
      end
  end.

(** coerce_spark_schema_or_fail, 54-78. *)
Definition coerce_spark_schema_or_fail (d : sframe) : res sframe :=
  let* _ := raise_if (smem "" (map sf_name (sd_fields d))) ValueError in
  let* _ := raise_if (negb (forallb (fun f => supported (sf_type f)) (sd_fields d))) ValueError in
  coerce_loop (sd_fields d) d.
