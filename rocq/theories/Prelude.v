(** Shared vocabulary: Python exceptions as values, and Python dictionaries as
    association lists in insertion order.  Nothing here models a file of
    /repo; it is the meta-language the models are written in. *)
From Coq Require Import String Bool Arith ZArith Lia List.
Import ListNotations.

(** Exception classes raised by the modelled code.  Messages are not modelled. *)
Inductive exn : Type :=
| ValueError | KeyError | TypeError | RuntimeError | NotImplementedError
| IndexError | AttributeError | OverflowError | ZeroDivisionError
| AssertionError | InternalError.

(** The outcome of running a piece of Python code: a value or an exception. *)
Inductive res (A : Type) : Type :=
| Ok (a : A)
| Err (e : exn).
Arguments Ok {A} a.
Arguments Err {A} e.

Definition bind {A B} (r : res A) (f : A -> res B) : res B :=
  match r with Ok a => f a | Err e => Err e end.

Notation "'let*' x ':=' r 'in' k" := (bind r (fun x => k))
  (at level 200, x name, r at level 100, k at level 200).
Notation "'let*' ' p ':=' r 'in' k" := (bind r (fun p => k))
  (at level 200, p strict pattern, r at level 100, k at level 200).

(** [raise_if c e]: "if c: raise e". *)
Definition raise_if (c : bool) (e : exn) : res unit :=
  if c then Err e else Ok tt.

Definition is_ok {A} (r : res A) : bool :=
  match r with Ok _ => true | Err _ => false end.

(** [mapM f l]: a Python loop that may raise at the first failing element. *)
Section MapM.
Context {A B : Type}.
Variable f : A -> res B.
Fixpoint mapM (l : list A) : res (list B) :=
  match l with
  | [] => Ok []
  | x :: xs => let* y := f x in let* ys := mapM xs in Ok (y :: ys)
  end.
End MapM.

Lemma bind_ok {A B} (r : res A) (f : A -> res B) b :
  bind r f = Ok b <-> exists a, r = Ok a /\ f a = Ok b.
Proof.
  destruct r as [a|e]; simpl; split.
  - intros H; exists a; auto.
  - intros (a' & Ha & Hf). inversion Ha; subst; auto.
  - discriminate.
  - intros (a' & Ha & _). discriminate.
Qed.

Lemma raise_if_ok c e : raise_if c e = Ok tt <-> c = false.
Proof. destruct c; simpl; split; intros; congruence. Qed.

Lemma mapM_ok_length {A B} (f : A -> res B) l l' :
  mapM f l = Ok l' -> length l' = length l.
Proof.
  revert l'; induction l as [|x xs IH]; simpl; intros l' H.
  - inversion H; reflexivity.
  - apply bind_ok in H as (y & _ & H). apply bind_ok in H as (ys & Hys & H).
    inversion H; subst; simpl. f_equal. auto.
Qed.

Lemma mapM_ok_Forall2 {A B} (f : A -> res B) l l' :
  mapM f l = Ok l' <-> Forall2 (fun x y => f x = Ok y) l l'.
Proof.
  revert l'; induction l as [|x xs IH]; simpl; intros l'; split; intros H.
  - inversion H; constructor.
  - inversion H; reflexivity.
  - apply bind_ok in H as (y & Hy & H). apply bind_ok in H as (ys & Hys & H).
    inversion H; subst; constructor; [assumption|]. apply IH; assumption.
  - inversion H as [|? y ? ys Hy Hys]; subst.
    rewrite Hy; simpl. apply IH in Hys. rewrite Hys; reflexivity.
Qed.

(** ** Python dictionaries with string keys, in insertion order. *)
Definition dict (V : Type) := list (string * V).

Fixpoint dget {V} (k : string) (d : dict V) : option V :=
  match d with
  | [] => None
  | (k', v) :: r => if String.eqb k k' then Some v else dget k r
  end.

Definition dmem {V} (k : string) (d : dict V) : bool :=
  match dget k d with Some _ => true | None => false end.

(** [d[k] = v]: overwrites in place, otherwise appends. *)
Fixpoint dset {V} (k : string) (v : V) (d : dict V) : dict V :=
  match d with
  | [] => [(k, v)]
  | (k', v') :: r =>
      if String.eqb k k' then (k', v) :: r else (k', v') :: dset k v r
  end.

(** [dict(pairs)] / a dict comprehension: later pairs overwrite earlier ones. *)
Definition dict_of {V} (l : list (string * V)) : dict V :=
  fold_left (fun d p => dset (fst p) (snd p) d) l [].

(** [del d[k]]. *)
Definition ddel {V} (k : string) (d : dict V) : dict V :=
  filter (fun p => negb (String.eqb k (fst p))) d.

Definition dkeys {V} (d : dict V) : list string := map fst d.

(** [x in l] for a list of strings. *)
Definition smem (x : string) (l : list string) : bool :=
  existsb (String.eqb x) l.

Lemma smem_In x l : smem x l = true <-> In x l.
Proof.
  unfold smem. rewrite existsb_exists. split.
  - intros (y & Hy & E). apply String.eqb_eq in E; subst; assumption.
  - intros H; exists x; split; [assumption|apply String.eqb_refl].
Qed.

Lemma smem_false x l : smem x l = false <-> ~ In x l.
Proof.
  rewrite <- smem_In. destruct (smem x l); split; intros H; congruence.
Qed.

Lemma dmem_In {V} k (d : dict V) : dmem k d = true <-> In k (dkeys d).
Proof.
  unfold dmem, dkeys. induction d as [|[k' v] r IH]; simpl.
  - split; [discriminate|tauto].
  - destruct (String.eqb_spec k k') as [->|N].
    + split; auto.
    + rewrite IH. split; auto. intros [E|H]; [congruence|assumption].
Qed.

Lemma dget_In {V} k (v : V) d : dget k d = Some v -> In (k, v) d.
Proof.
  induction d as [|[k' v'] r IH]; simpl; [discriminate|].
  destruct (String.eqb_spec k k') as [->|N]; intros H.
  - inversion H; auto.
  - auto.
Qed.

Lemma dget_None {V} k (d : dict V) : dget k d = None <-> ~ In k (dkeys d).
Proof.
  unfold dkeys. induction d as [|[k' v] r IH]; simpl.
  - tauto.
  - destruct (String.eqb_spec k k') as [->|N].
    + split; [discriminate|]. intros H; exfalso; auto.
    + rewrite IH. split; intros H; [|tauto]. intros [E|E]; [congruence|tauto].
Qed.

Lemma In_dget {V} k (v : V) d :
  NoDup (dkeys d) -> In (k, v) d -> dget k d = Some v.
Proof.
  unfold dkeys. induction d as [|[k' v'] r IH]; simpl; [tauto|].
  intros ND [E|H].
  - inversion E; subst. rewrite String.eqb_refl. reflexivity.
  - inversion ND as [|? ? N1 N2]; subst.
    destruct (String.eqb_spec k k') as [->|N]; [|auto].
    exfalso; apply N1. change k' with (fst (k', v)). apply in_map; assumption.
Qed.

Lemma dget_dset_same {V} k (v : V) d : dget k (dset k v d) = Some v.
Proof.
  induction d as [|[k' v'] r IH]; simpl.
  - rewrite String.eqb_refl; reflexivity.
  - destruct (String.eqb_spec k k') as [->|N]; simpl.
    + rewrite String.eqb_refl; reflexivity.
    + apply String.eqb_neq in N; rewrite N; assumption.
Qed.

Lemma dget_dset_other {V} k k' (v : V) d :
  k <> k' -> dget k' (dset k v d) = dget k' d.
Proof.
  intros N. induction d as [|[k2 v2] r IH]; simpl.
  - destruct (String.eqb_spec k' k); [congruence|reflexivity].
  - destruct (String.eqb_spec k k2) as [->|N2]; simpl.
    + destruct (String.eqb_spec k' k2); [congruence|reflexivity].
    + destruct (String.eqb_spec k' k2); [reflexivity|assumption].
Qed.

Lemma dget_dset {V} k k' (v : V) d :
  dget k' (dset k v d) = if String.eqb k k' then Some v else dget k' d.
Proof.
  destruct (String.eqb_spec k k') as [->|N].
  - apply dget_dset_same.
  - apply dget_dset_other; assumption.
Qed.

Lemma dkeys_dset {V} k (v : V) d :
  dkeys (dset k v d) = if smem k (dkeys d) then dkeys d else dkeys d ++ [k].
Proof.
  unfold dkeys, smem. induction d as [|[k' v'] r IH]; simpl; [reflexivity|].
  destruct (String.eqb_spec k k') as [->|N]; simpl; [reflexivity|].
  rewrite IH. destruct (existsb (String.eqb k) (map fst r)); reflexivity.
Qed.

Lemma NoDup_app_single {A} (l : list A) x : NoDup l -> ~ In x l -> NoDup (l ++ [x]).
Proof.
  induction l as [|y ys IH]; simpl; intros ND NI.
  - constructor; [simpl; tauto|constructor].
  - inversion ND; subst. constructor.
    + rewrite in_app_iff; simpl. intros [H|[H|[]]]; [auto|subst; tauto].
    + apply IH; [assumption|tauto].
Qed.

Lemma NoDup_dset {V} k (v : V) d : NoDup (dkeys d) -> NoDup (dkeys (dset k v d)).
Proof.
  intros ND. rewrite dkeys_dset. destruct (smem k (dkeys d)) eqn:E; [assumption|].
  apply smem_false in E. apply NoDup_app_single; assumption.
Qed.

Lemma NoDup_dict_of_aux {V} (l : list (string * V)) d :
  NoDup (dkeys d) -> NoDup (dkeys (fold_left (fun d p => dset (fst p) (snd p) d) l d)).
Proof.
  revert d; induction l as [|p r IH]; simpl; intros d H; [assumption|].
  apply IH, NoDup_dset, H.
Qed.

Lemma NoDup_dict_of {V} (l : list (string * V)) : NoDup (dkeys (dict_of l)).
Proof. apply NoDup_dict_of_aux. constructor. Qed.

Lemma dset_append {V} k (v : V) d :
  ~ In k (dkeys d) -> dset k v d = d ++ [(k, v)].
Proof.
  unfold dkeys. induction d as [|[k' v'] r IH]; simpl; intros H; [reflexivity|].
  destruct (String.eqb_spec k k') as [->|N]; [exfalso; auto|].
  f_equal; apply IH; tauto.
Qed.

Lemma dict_of_aux_NoDup {V} (l : list (string * V)) d :
  NoDup (dkeys d ++ map fst l) ->
  fold_left (fun d p => dset (fst p) (snd p) d) l d = d ++ l.
Proof.
  revert d; induction l as [|[k v] r IH]; simpl; intros d H.
  - rewrite app_nil_r; reflexivity.
  - rewrite dset_append.
    + rewrite IH.
      * rewrite <- app_assoc; reflexivity.
      * unfold dkeys in *. rewrite map_app, <- app_assoc. simpl. assumption.
    + apply NoDup_remove_2 in H. rewrite in_app_iff in H. tauto.
Qed.

(** A dictionary literal whose keys are distinct is just the list of its items. *)
Lemma dict_of_NoDup {V} (l : list (string * V)) :
  NoDup (map fst l) -> dict_of l = l.
Proof. intros H. unfold dict_of. rewrite dict_of_aux_NoDup; [reflexivity|exact H]. Qed.

(** ** Lists *)

Definition option_eqb {A} (eqb : A -> A -> bool) (x y : option A) : bool :=
  match x, y with
  | None, None => true
  | Some a, Some b => eqb a b
  | _, _ => false
  end.

Fixpoint list_eqb {A} (eqb : A -> A -> bool) (x y : list A) : bool :=
  match x, y with
  | [], [] => true
  | a :: x', b :: y' => eqb a b && list_eqb eqb x' y'
  | _, _ => false
  end.

Lemma list_eqb_eq {A} (eqb : A -> A -> bool) :
  (forall a b, eqb a b = true <-> a = b) ->
  forall x y, list_eqb eqb x y = true <-> x = y.
Proof.
  intros H. induction x as [|a x IH]; destruct y as [|b y]; simpl;
    try (split; intros; congruence).
  rewrite andb_true_iff, H, IH. split.
  - intros [-> ->]; reflexivity.
  - intros E; inversion E; auto.
Qed.

Lemma option_eqb_eq {A} (eqb : A -> A -> bool) :
  (forall a b, eqb a b = true <-> a = b) ->
  forall x y, option_eqb eqb x y = true <-> x = y.
Proof.
  intros H [a|] [b|]; simpl; try (split; intros; congruence).
  rewrite H. split; intros; congruence.
Qed.
