(** Specification for C61: programs over KeySets that never change.  Each KeySet is a value
    with its own columns, fixed when it is made; asking it something changes nothing. *)
From Coq Require Import String Bool Arith ZArith Lia List.
From Verif Require Import Prelude Value KeySet KeySetObject.
Import ListNotations.

Record shelf : Type := { s_lists : list (list string); s_keysets : list keyset }.
Definition bare : shelf := {| s_lists := []; s_keysets := [] |}.

Definition s_names (s : shelf) (c : colarg) : res (list string) :=
  match c with Given cs => Ok cs | Kept l => find (s_lists s) l end.
Definition s_keep (s : shelf) (r : res keyset) : shelf * res answer :=
  match r with
  | Ok k => ({| s_lists := s_lists s; s_keysets := s_keysets s ++ [k] |},
             Ok (AKeySet (length (s_keysets s))))
  | Err e => (s, Err e)
  end.
Definition s_say {A} (s : shelf) (r : res A) (f : A -> answer) : shelf * res answer :=
  (s, let* a := r in Ok (f a)).

(** Apply [f] to one KeySet, or [g] to two. *)
Definition one {A} (s : shelf) (a : nat) (f : keyset -> res A) : res A :=
  let* x := find (s_keysets s) a in f x.
Definition two {A} (s : shelf) (a b : nat) (g : keyset -> keyset -> res A) : res A :=
  let* x := find (s_keysets s) a in let* y := find (s_keysets s) b in g x y.
Definition for_keyset {A} (e : exn) (f : keyset -> res A) (k : keyset) : res A :=
  if ks_plan k then Err e else f k.

Definition spec_step (W : world) (s : shelf) (c : call) : shelf * res answer :=
  match c with
  | NewList cs =>
      ({| s_lists := s_lists s ++ [cs]; s_keysets := s_keysets s |}, Ok (AList (length (s_lists s))))
  | SetList l cs =>
      match find (s_lists s) l with
      | Ok _ => ({| s_lists := put l cs (s_lists s); s_keysets := s_keysets s |}, Ok ANone)
      | Err e => (s, Err e)
      end
  | FromTuplesCall ts cs => s_keep s (let* l := s_names s cs in from_tuples W ts l)
  | FromFrameCall p d => s_keep s (from_dataframe W p d)
  | FromDictCall domains => s_keep s (from_dict W domains)
  | DetectCall cs => s_keep s (let* l := s_names s cs in detect W l)
  | MulCall a b => s_keep s (two s a b (ks_mul W))
  | SubCall a b => s_keep s (two s a b (ks_sub W))
  | SelectCall a cs => s_keep s (one s a (fun k => let* l := s_names s cs in ks_project W k l))
  | JoinCall a b => s_keep s (two s a b (ks_join W))
  | FilterCall a cnd => s_keep s (one s a (fun k => ks_filter W k cnd))
  | UnionCall a b => s_keep s (two s a b (ks_union W))
  | ColumnsCall a => s_say s (one s a (fun k => Ok (ks_cols k))) AColumns
  | SchemaCall a => s_say s (one s a (for_keyset AttributeError ks_schema)) ASchema
  | DataframeCall a => s_say s (one s a (for_keyset AttributeError (ks_dataframe W))) AFrame
  | SizeCall a => s_say s (one s a (for_keyset AttributeError (ks_size W))) ASize
  | CacheCall a | UncacheCall a => s_say s (one s a (for_keyset AttributeError Ok)) (fun _ => ANone)
  | EquivalentCall a b => s_say s (two s a b ks_is_equivalent) AVerdict
  | EqualCall a b => s_say s (two s a b (ks_eq W)) (fun v => AVerdict (Some v))
  | HashCall a => s_say s (one s a (for_keyset TypeError ks_hash_key)) AHash
  end.
Fixpoint spec_run (W : world) (s : shelf) (cs : list call) : list (call * res answer) :=
  match cs with
  | [] => []
  | c :: r => let (s', a) := spec_step W s c in (c, a) :: spec_run W s' r
  end.

(** The caller's list that a call hands to the KeySet it makes. *)
Definition hands (c : call) (l : nat) : Prop :=
  match c with
  | FromTuplesCall _ (Kept m) | DetectCall (Kept m) | SelectCall _ (Kept m) => l = m
  | _ => False
  end.
(** No list is changed after it was handed to a KeySet. *)
Definition lists_left_alone (cs : list call) : Prop :=
  forall before l new after, cs = before ++ SetList l new :: after ->
    forall c, In c before -> ~ hands c l.

(** *** Spark's storage *)

(** The remembered dataframe of object [o] is in storage after these events. *)
Fixpoint stored_from (b : bool) (o : nat) (es : list event) : bool :=
  match es with
  | [] => b
  | Persist i :: r => stored_from (if i =? o then true else b) o r
  | Unpersist i :: r => stored_from (if i =? o then false else b) o r
  end.
Definition stored : nat -> list event -> bool := stored_from false.

(** The last of cache() and uncache() that was called on object [o] is cache(). *)
Fixpoint wants_from (b : bool) (o : nat) (t : list (call * res answer)) : bool :=
  match t with
  | [] => b
  | (CacheCall i, Ok _) :: r => wants_from (if i =? o then true else b) o r
  | (UncacheCall i, Ok _) :: r => wants_from (if i =? o then false else b) o r
  | _ :: r => wants_from b o r
  end.
Definition wants : nat -> list (call * res answer) -> bool := wants_from false.
