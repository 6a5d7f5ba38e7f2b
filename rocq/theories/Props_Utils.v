(** Property C58: helpers accept exactly what they say. *)
From Coq Require Import String Bool Arith Lia List.
From Verif Require Import Prelude Utils.
Import ListNotations.
Local Open Scope string_scope.
Local Open Scope nat_scope.

Lemma minus_nil {A} (eqb : A -> A -> bool) (EQ : forall x y, eqb x y = true <-> x = y) a b :
  (length (minus eqb a b) =? 0) = true <-> forall x, In x a -> In x b.
Proof.
  assert (H : forall x l, has eqb x l = true <-> In x l).
  { intros x l. unfold has. rewrite existsb_exists. split; [intros (y & I & E); apply EQ in E; subst; exact I|intros I; exists x; split; [exact I|apply EQ; reflexivity]]. }
  unfold minus. rewrite Nat.eqb_eq. split.
  - intros L x I. destruct (has eqb x b) eqn:E; [apply H, E|]. exfalso. assert (J : In x (filter (fun x => negb (has eqb x b)) a)) by (apply filter_In; rewrite E; auto).
    destruct (filter _ a); [destruct J|discriminate].
  - intros S. destruct (filter (fun x => negb (has eqb x b)) a) as [|x l] eqn:E; [reflexivity|]. exfalso.
    assert (J : In x (filter (fun x => negb (has eqb x b)) a)) by (rewrite E; left; reflexivity). apply filter_In in J as (I & N). rewrite (proj2 (H x b) (S x I)) in N. discriminate.
Qed.
(** Exactly the collections that contain all required elements, and nothing that is neither
    required nor optional, are accepted; order and repetitions do not matter. *)
Theorem C58_collections_validated : forall A (eqb : A -> A -> bool) sortable test required optional err,
  (forall x y, eqb x y = true <-> x = y) ->
  (validate_collection eqb sortable test required optional err = Ok tt <->
   (forall x, In x required -> In x test) /\ (forall x, In x test -> In x required \/ In x optional)).
Proof.
  intros A eqb sortable test required optional err EQ. unfold validate_collection, complain.
  destruct (length (minus eqb required test) =? 0) eqn:M; cbn [negb].
  - pose proof (proj1 (minus_nil eqb EQ _ _) M) as R. destruct (length (minus eqb test (required ++ optional)) =? 0) eqn:U; cbn [negb].
    + pose proof (proj1 (minus_nil eqb EQ _ _) U) as P. split; [intros _|reflexivity]. split; [exact R|]. intros x I. apply in_app_or, P, I.
    + split; [destruct (_ && _); discriminate|]. intros (_ & P). exfalso. assert (T : (length (minus eqb test (required ++ optional)) =? 0) = true) by (apply (minus_nil eqb EQ); intros x I; apply in_or_app, P, I). congruence.
  - split; [destruct (_ && _); discriminate|]. intros (R & _). exfalso. apply (minus_nil eqb EQ) in R. congruence.
Qed.
Print Assumptions C58_collections_validated.
(** What is refused is refused with the given exception, if the elements can be sorted. *)
Theorem C58_refusals_as_asked_partial : forall A (eqb : A -> A -> bool) sortable test required optional err,
  (forall l, (forall x, In x l -> In x test \/ In x required \/ In x optional) -> sortable l = true) ->
  validate_collection eqb sortable test required optional err = Ok tt \/ validate_collection eqb sortable test required optional err = Err err.
Proof.
  intros A eqb sortable test required optional err SO. unfold validate_collection, complain.
  assert (S1 : sortable required = true) by (apply SO; auto). assert (S2 : sortable optional = true) by (apply SO; auto).
  assert (S3 : sortable (minus eqb required test) = true) by (apply SO; intros x I; apply filter_In in I as (I & _); auto).
  assert (S4 : sortable (minus eqb test (required ++ optional)%list) = true) by (apply SO; intros x I; apply filter_In in I as (I & _); auto).
  rewrite S1, S2, S3, S4. cbn [andb]. destruct (negb _); [auto|]. destruct (negb _); auto.
Qed.
Print Assumptions C58_refusals_as_asked_partial.
(** Elements of different types cannot be sorted, and then TypeError is raised instead. *)
Definition numbers_or_names (l : list (nat + string)) : bool :=
  forallb (fun x => match x with inl _ => true | inr _ => false end) l || forallb (fun x => match x with inl _ => false | inr _ => true end) l.
Definition sum_eqb (a b : nat + string) : bool :=
  match a, b with inl x, inl y => Nat.eqb x y | inr x, inr y => String.eqb x y | _, _ => false end.
Theorem C58_unsortable_refuted : exists test required optional,
  (forall x y, sum_eqb x y = true <-> x = y)
  /\ validate_collection sum_eqb numbers_or_names test required optional KeyError = Err TypeError.
Proof.
  exists [], [inl 1; inr "a"], []. split; [|reflexivity]. intros [x|x] [y|y]; cbn; rewrite ?Nat.eqb_eq, ?String.eqb_eq; split; congruence.
Qed.
Print Assumptions C58_unsortable_refuted.

(** A parameter is set once: after any calls it has the first value it was given, and setting
    it again raises ValueError and changes nothing. *)
Fixpoint first_given {V} (n : string) (calls : list (string * V)) : option V :=
  match calls with [] => None | (m, v) :: calls => if String.eqb n m then Some v else first_given n calls end.
Lemma dget_snoc {V} (d : dict V) k v n : dget n (d ++ [(k, v)])%list = match dget n d with Some x => Some x | None => if String.eqb n k then Some v else None end.
Proof. induction d as [|(a, x) d IH]; [reflexivity|]. cbn. destruct (String.eqb n a); [reflexivity|exact IH]. Qed.
Lemma parameters_kept {V} (calls : list (string * V)) : forall d n, dget n (with_parameters d calls) = match dget n d with Some x => Some x | None => first_given n calls end.
Proof.
  induction calls as [|(m, v) calls IH]; intros d n; cbn [with_parameters first_given]; [destruct (dget n d); reflexivity|]. rewrite IH.
  unfold with_parameter, dmem. destruct (dget m d) as [x|] eqn:G; cbn [fst].
  - destruct (dget n d) eqn:N; [reflexivity|]. destruct (String.eqb_spec n m) as [->|]; [congruence|reflexivity].
  - rewrite dget_snoc. destruct (dget n d); [reflexivity|]. destruct (String.eqb n m); reflexivity.
Qed.
Theorem C58_parameters_set_once : forall V (calls : list (string * V)) n v,
  let d := with_parameters no_parameters calls in
  dget n d = first_given n calls
  /\ (first_given n calls = None -> snd (with_parameter d n v) = Ok tt /\ dget n (fst (with_parameter d n v)) = Some v)
  /\ (first_given n calls <> None -> with_parameter d n v = (d, Err ValueError)).
Proof.
  intros V calls n v d. assert (G : dget n d = first_given n calls) by (unfold d; rewrite parameters_kept; reflexivity). split; [exact G|]. unfold with_parameter, dmem. rewrite G. split.
  - intros F. rewrite F in *. split; [reflexivity|]. cbn [fst]. rewrite dget_snoc, G, String.eqb_refl. reflexivity.
  - intros N. destruct (first_given n calls); [reflexivity|destruct (N eq_refl)].
Qed.
Print Assumptions C58_parameters_set_once.
Example C58_case : validate_collection String.eqb (fun _ => true) ["c"; "a"; "a"] ["a"; "c"] ["b"] KeyError = Ok tt
  /\ validate_collection String.eqb (fun _ => true) ["a"; "b"] ["a"; "c"] ["b"] KeyError = Err KeyError
  /\ validate_collection String.eqb (fun _ => true) ["a"; "c"; "d"] ["a"; "c"] ["b"] KeyError = Err KeyError
  /\ with_parameters no_parameters [("x", 1); ("y", 2); ("x", 3)] = [("x", 1); ("y", 2)].
Proof. repeat split. Qed.
