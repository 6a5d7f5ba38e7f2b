(** KeySets as Python objects: src/tmlt/analytics/keyset/_keyset.py with what KeySet.v leaves
    out, namely the fields that change after construction (the remembered dataframe and size,
    the cached flag) and the list of column names, which the object shares with its caller.

    Simplifications: the Python heap holds the lists of strings that the program makes and
    the KeySets and KeySetPlans it builds, each named by its position; naming one that does
    not exist is answered by KeyError.  Spark's storage is the sequence of cache() and
    unpersist() calls on the remembered dataframes; that Spark shares storage between
    dataframes with equal plans is not modelled. *)
From Coq Require Import String Bool Arith ZArith Lia List.
From Verif Require Import Prelude Value KeySet.
Import ListNotations.

(** A sequence of column names given by the caller: one that never changes (a tuple, or a
    list made for the call), or a list that the caller keeps. *)
Inductive colarg : Type := Given (cs : list string) | Kept (l : nat).

(** A KeySet (38-74) or KeySetPlan (622-657); a KeySetPlan has no use for the last three
    fields. *)
Record object : Type := {
  o_tree : op;                 (* _op_tree *)
  o_cols : colarg;             (* _columns, not copied: 71, 652 *)
  o_frame : option frame;      (* _dataframe *)
  o_size : option Z;           (* _size *)
  o_cached : bool              (* _cached *)
}.

Inductive event : Type := Persist (o : nat) | Unpersist (o : nat).

Record heap : Type := {
  lists : list (list string);
  objects : list object;
  spark : list event           (* oldest first *)
}.
Definition empty : heap := {| lists := []; objects := []; spark := [] |}.

(** What a program can do. *)
Inductive call : Type :=
| NewList (cs : list string)                  (* l = [...] *)
| SetList (l : nat) (cs : list string)        (* l[:] = [...] *)
| FromTuplesCall (ts : list row) (cs : colarg)
| FromFrameCall (p : nat) (d : dict coldesc)
| FromDictCall (domains : dict (list value))
| DetectCall (cs : colarg)
| MulCall (a b : nat)
| SubCall (a b : nat)
| SelectCall (a : nat) (cs : colarg)
| JoinCall (a b : nat)
| FilterCall (a : nat) (c : cond)
| UnionCall (a b : nat)
| ColumnsCall (a : nat)
| SchemaCall (a : nat)
| DataframeCall (a : nat)
| SizeCall (a : nat)
| CacheCall (a : nat)
| UncacheCall (a : nat)
| EquivalentCall (a b : nat)
| EqualCall (a b : nat)
| HashCall (a : nat).

Inductive answer : Type :=
| ANone
| AList (l : nat)
| AKeySet (k : nat)
| AColumns (cs : list string)
| ASchema (d : dict coldesc)
| AFrame (f : frame)
| ASize (n : Z)
| AVerdict (v : option bool)
| AHash (d : dict coldesc).     (* what is hashed *)

(** Replace the element at position [i]. *)
Fixpoint put {A} (i : nat) (x : A) (l : list A) : list A :=
  match l, i with
  | [], _ => []
  | _ :: r, O => x :: r
  | y :: r, S j => y :: put j x r
  end.

(** nth element, or KeyError. *)
Definition find {A} (l : list A) (i : nat) : res A :=
  match nth_error l i with Some x => Ok x | None => Err KeyError end.

(** The strings in a sequence of names. *)
Definition names (h : heap) (c : colarg) : list string :=
  match c with Given cs => cs | Kept l => nth l (lists h) [] end.
Definition exists_list (h : heap) (c : colarg) : res unit :=
  match c with
  | Given _ => Ok tt
  | Kept l => raise_if (negb (l <? length (lists h))%nat) KeyError
  end.

(** The object as KeySet.v sees it now; columns() (440-442, 659-661) reads the list. *)
Definition view (h : heap) (o : object) : keyset :=
  {| ks_tree := o_tree o; ks_cols := names h (o_cols o) |}.
Definition look (h : heap) (a : nat) : res keyset :=
  let* o := find (objects h) a in Ok (view h o).

(** A new object (70-74, 651-652). *)
Definition fresh (k : keyset) (c : colarg) : object :=
  {| o_tree := ks_tree k; o_cols := c; o_frame := None; o_size := None; o_cached := false |}.
Definition add (h : heap) (o : object) : heap :=
  {| lists := lists h; objects := objects h ++ [o]; spark := spark h |}.
(** Assigning to an object's fields, with what Spark is told. *)
Definition update (h : heap) (a : nat) (o : object) (es : list event) : heap :=
  {| lists := lists h; objects := put a o (objects h); spark := spark h ++ es |}.

(** Keep a new KeySet; [c] is what it holds as _columns. *)
Definition keep (h : heap) (r : res keyset) (c : keyset -> colarg) : heap * res answer :=
  match r with
  | Ok k => (add h (fresh k (c k)), Ok (AKeySet (length (objects h))))
  | Err e => (h, Err e)
  end.
Definition own (k : keyset) : colarg := Given (ks_cols k).
Definition reply {A} (h : heap) (r : res A) (f : A -> answer) : heap * res answer :=
  (h, match r with Ok a => Ok (f a) | Err e => Err e end).

(** KeySetPlan has no such method. *)
Definition keyset_only (k : keyset) : res unit := raise_if (ks_plan k) AttributeError.

Section Objects.
Variable W : world.

(** KeySet.dataframe (461-479). *)
Definition dataframe_of (h : heap) (a : nat) : heap * res frame :=
  match find (objects h) a with
  | Err e => (h, Err e)
  | Ok o =>
      if ks_plan (view h o) then (h, Err AttributeError)
      else match o_frame o with
      | Some f => (h, Ok f)
      | None =>
          match ks_dataframe W (view h o) with
          | Err e => (h, Err e)
          | Ok f =>
              (update h a {| o_tree := o_tree o; o_cols := o_cols o; o_frame := Some f;
                             o_size := o_size o; o_cached := o_cached o |}
                      (if o_cached o then [Persist a] else []), Ok f)
          end
      end
  end.

(** KeySet.size (481-489). *)
Definition size_of (h : heap) (a : nat) : heap * res Z :=
  match find (objects h) a with
  | Err e => (h, Err e)
  | Ok o =>
      if ks_plan (view h o) then (h, Err AttributeError)
      else match o_size o with
      | Some n => (h, Ok n)
      | None =>
          match ks_size W (view h o) with
          | Err e => (h, Err e)
          | Ok n =>
              (update h a {| o_tree := o_tree o; o_cols := o_cols o; o_frame := o_frame o;
                             o_size := Some n; o_cached := o_cached o |} [], Ok n)
          end
      end
  end.

(** KeySet.cache (491-498). *)
Definition cache (h : heap) (a : nat) : heap * res answer :=
  match find (objects h) a with
  | Err e => (h, Err e)
  | Ok o =>
      if ks_plan (view h o) then (h, Err AttributeError)
      else if o_cached o then (h, Ok ANone)
      else (update h a {| o_tree := o_tree o; o_cols := o_cols o; o_frame := o_frame o;
                          o_size := o_size o; o_cached := true |}
                   (match o_frame o with Some _ => [Persist a] | None => [] end), Ok ANone)
  end.

(** KeySet.uncache (500-504). *)
Definition uncache (h : heap) (a : nat) : heap * res answer :=
  match find (objects h) a with
  | Err e => (h, Err e)
  | Ok o =>
      if ks_plan (view h o) then (h, Err AttributeError)
      else (update h a {| o_tree := o_tree o; o_cols := o_cols o; o_frame := o_frame o;
                          o_size := o_size o; o_cached := false |}
                   (match o_frame o with Some _ => [Unpersist a] | None => [] end), Ok ANone)
  end.

(** df.select(cols): unknown columns are refused (an AnalysisException, shown as ValueError). *)
Definition select_columns (cs : list string) (f : frame) : res frame :=
  let* _ := raise_if (negb (subset cs (fcols f))) ValueError in Ok (fselect cs f).

(** KeySet.__eq__ (535-570) and KeySetPlan.__eq__ (837-848). *)
Definition equal (h : heap) (a b : nat) : heap * res answer :=
  match look h a, look h b with
  | Err e, _ | _, Err e => (h, Err e)
  | Ok ka, Ok kb =>
      if negb (Bool.eqb (ks_plan ka) (ks_plan kb)) then (h, Ok (AVerdict (Some false)))
      else match ks_is_equivalent ka kb with
      | Err e => (h, Err e)
      | Ok (Some v) => (h, Ok (AVerdict (Some v)))
      | Ok None =>
          if ks_plan ka then (h, Ok (AVerdict (Some false)))
          else
            let (h1, ra) := dataframe_of h a in
            match (let* fa := ra in select_columns (ks_cols ka) fa) with
            | Err e => (h1, Err e)
            | Ok sa =>
                let (h2, rb) := dataframe_of h1 b in
                match (let* fb := rb in select_columns (ks_cols ka) fb) with
                | Err e => (h2, Err e)
                | Ok sb =>
                    (h2, Ok (AVerdict (Some (is_nil (except_all (frows sa) (frows sb))
                                             && is_nil (except_all (frows sb) (frows sa))))))
                end
            end
      end
  end.

(** KeySet.__hash__ (572-574); KeySetPlan defines __eq__ only, so it is unhashable. *)
Definition hash_of (k : keyset) : res (dict coldesc) :=
  let* _ := raise_if (ks_plan k) TypeError in ks_hash_key k.

(** One call.  from_tuples (92-159), _detect (201-204) and __getitem__ (265-313, 701-735)
    hand the caller's sequence to the constructor, the other operations a new list. *)
Definition step (h : heap) (c : call) : heap * res answer :=
  match c with
  | NewList cs =>
      ({| lists := lists h ++ [cs]; objects := objects h; spark := spark h |},
       Ok (AList (length (lists h))))
  | SetList l cs =>
      if (l <? length (lists h))%nat
      then ({| lists := put l cs (lists h); objects := objects h; spark := spark h |}, Ok ANone)
      else (h, Err KeyError)
  | FromTuplesCall ts cs =>
      keep h (let* _ := exists_list h cs in from_tuples W ts (names h cs)) (fun _ => cs)
  | FromFrameCall p d => keep h (from_dataframe W p d) own
  | FromDictCall domains => keep h (from_dict W domains) own
  | DetectCall cs =>
      keep h (let* _ := exists_list h cs in detect W (names h cs)) (fun _ => cs)
  | MulCall a b => keep h (let* x := look h a in let* y := look h b in ks_mul W x y) own
  | SubCall a b => keep h (let* x := look h a in let* y := look h b in ks_sub W x y) own
  | SelectCall a cs =>
      keep h (let* x := look h a in let* _ := exists_list h cs in ks_project W x (names h cs)) (fun _ => cs)
  | JoinCall a b => keep h (let* x := look h a in let* y := look h b in ks_join W x y) own
  | FilterCall a cnd => keep h (let* x := look h a in ks_filter W x cnd) own
  | UnionCall a b => keep h (let* x := look h a in let* y := look h b in ks_union W x y) own
  | ColumnsCall a => reply h (let* x := look h a in Ok (ks_cols x)) AColumns
  | SchemaCall a =>
      reply h (let* x := look h a in let* _ := keyset_only x in ks_schema x) ASchema
  | DataframeCall a => let (h', r) := dataframe_of h a in reply h' r AFrame
  | SizeCall a => let (h', r) := size_of h a in reply h' r ASize
  | CacheCall a => cache h a
  | UncacheCall a => uncache h a
  | EquivalentCall a b =>
      reply h (let* x := look h a in let* y := look h b in ks_is_equivalent x y) AVerdict
  | EqualCall a b => equal h a b
  | HashCall a => reply h (let* x := look h a in hash_of x) AHash
  end.

(** Running a program: the heap it ends in, and each call with its answer. *)
Fixpoint run (h : heap) (cs : list call) : heap * list (call * res answer) :=
  match cs with
  | [] => (h, [])
  | c :: r => let (h1, a) := step h c in let (h2, t) := run h1 r in (h2, (c, a) :: t)
  end.

End Objects.
