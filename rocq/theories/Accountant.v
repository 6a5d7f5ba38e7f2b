(** The tree of privacy accountants behind a session and its partitions.  Models the calls
    that session.py makes on tmlt.core's PrivacyAccountant: measure, split,
    transform_in_place, retire, force_activate and state.  tmlt.core is not in the
    repository; its documented behaviour is taken as definition:
    - a split makes the accountant WAITING_FOR_CHILDREN, the first part ACTIVE and the
      others WAITING_FOR_SIBLING;
    - retiring an active part makes its next sibling, or after the last one the parent,
      ACTIVE;
    - force_activate retires the descendants of an accountant waiting for its children,
      and the preceding siblings (with descendants) of one waiting for a sibling;
    - what retire() does on a waiting accountant is left open: it raises, or it activates
      the accountant first ([retires_waiting]). *)
From Coq Require Import String Bool Arith ZArith Lia List.
From Verif Require Import Prelude.
Import ListNotations.
Local Open Scope nat_scope.

(** PrivacyAccountantState *)
Inductive astate : Type := ACTIVE | RETIRED | WAITING_FOR_CHILDREN | WAITING_FOR_SIBLING.

(** An accountant with its payload and the partitions made from it, oldest first. *)
Inductive acct (S : Type) : Type := Acct (st : astate) (s : S) (parts : list (list (acct S))).
Arguments Acct {S} st s parts.
(** Where an accountant is in the tree: partition number and part number on every level. *)
Definition path : Type := list (nat * nat).

Section Acct.
Context {S : Type}.
Notation acct := (acct S).

Definition a_state (t : acct) : astate := let 'Acct st _ _ := t in st.
Definition a_data (t : acct) : S := let 'Acct _ s _ := t in s.
Definition a_parts (t : acct) : list (list acct) := let 'Acct _ _ l := t in l.

(** Change the i-th element of a list. *)
Fixpoint upd {A} (i : nat) (f : A -> A) (l : list A) : list A :=
  match l, i with
  | [], _ => []
  | x :: l, O => f x :: l
  | x :: l, Datatypes.S i => x :: upd i f l
  end.

Fixpoint find (p : path) (t : acct) : option acct :=
  match p with
  | [] => Some t
  | (k, i) :: p =>
      match nth_error (a_parts t) k with
      | None => None
      | Some part => match nth_error part i with None => None | Some c => find p c end
      end
  end.
(** Change the accountant at [p]. *)
Fixpoint change (p : path) (f : acct -> acct) (t : acct) : acct :=
  match p with
  | [] => f t
  | (k, i) :: p => Acct (a_state t) (a_data t) (upd k (upd i (change p f)) (a_parts t))
  end.
Definition set_state (st : astate) (t : acct) : acct := Acct st (a_data t) (a_parts t).
Definition set_data (s : S) (t : acct) : acct := Acct (a_state t) s (a_parts t).

(** retire(force=True) of an accountant and its descendants. *)
Fixpoint retire_all (t : acct) : acct :=
  let 'Acct _ s parts := t in Acct RETIRED s (map (map retire_all) parts).

(** force_activate of an accountant waiting for its children. *)
Definition reclaim (t : acct) : acct := Acct ACTIVE (a_data t) (map (map retire_all) (a_parts t)).
(** force_activate of part [i], waiting for its siblings. *)
Definition skip_to (i : nat) (part : list acct) : list acct :=
  (map retire_all (firstn i part) ++ upd 0 (set_state ACTIVE) (skipn i part))%list.
Fixpoint force_activate (p : path) (t : acct) : acct :=
  match p with
  | [] => reclaim t
  | [(k, i)] =>
      match find p t with
      | Some c => match a_state c with
                  | WAITING_FOR_SIBLING => Acct (a_state t) (a_data t) (upd k (skip_to i) (a_parts t))
                  | _ => change p reclaim t
                  end
      | None => t
      end
  | (k, i) :: p => Acct (a_state t) (a_data t) (upd k (upd i (force_activate p)) (a_parts t))
  end.

(** Retiring an active accountant: the state of the parent afterwards depends on whether
    there is a next sibling. *)
Definition retire_part (k i : nat) (t : acct) : acct :=
  match nth_error (a_parts t) k with
  | None => t
  | Some part =>
      let parts := upd k (upd i retire_all) (a_parts t) in
      if Datatypes.S i <? length part
      then Acct (a_state t) (a_data t) (upd k (upd (Datatypes.S i) (set_state ACTIVE)) parts)
      else Acct ACTIVE (a_data t) parts
  end.
Fixpoint retire_active (p : path) (t : acct) : acct :=
  match p with
  | [] => retire_all t
  | [(k, i)] => retire_part k i t
  | (k, i) :: p => Acct (a_state t) (a_data t) (upd k (upd i (retire_active p)) (a_parts t))
  end.
(** PrivacyAccountant.retire() *)
Definition retire (retires_waiting : bool) (p : path) (t : acct) : acct * res unit :=
  match option_map a_state (find p t) with
  | None => (t, Err KeyError)
  | Some ACTIVE => (retire_active p t, Ok tt)
  | Some RETIRED => (t, Ok tt)
  | Some _ => if retires_waiting then (retire_active p (force_activate p t), Ok tt) else (t, Err RuntimeError)
  end.

(** split: a new partition with the given payloads. *)
Definition new_parts (l : list S) : list acct :=
  match l with
  | [] => []
  | s :: l => Acct ACTIVE s [] :: map (fun s => Acct WAITING_FOR_SIBLING s []) l
  end.
Definition split_at (s : S) (l : list S) (t : acct) : acct :=
  Acct WAITING_FOR_CHILDREN s (a_parts t ++ [new_parts l])%list.
End Acct.
Arguments path : clear implicits.
