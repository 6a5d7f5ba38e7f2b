(** Rows with named columns, tables as bags of rows, and the generic facts about
    sorting, counting and bag distance used by the table models.  Nothing here models a
    file of /repo; Spark tables are part of the trusted base and these definitions say
    what is assumed of them. *)
From Coq Require Import String Ascii Bool Arith ZArith QArith Qcanon Lia Permutation List.
From Verif Require Import Prelude Value.
Import ListNotations.
Local Open Scope nat_scope.

(** A row is a mapping from column names to cells; a table is a bag of rows, written as
    a list whose order means nothing. *)
Definition rec := dict value.
Definition table := list rec.

Definition rec_eq_dec (a b : rec) : {a = b} + {a <> b}.
Proof.
  apply list_eq_dec. intros [k v] [k' v'].
  destruct (String.string_dec k k'); [|right; congruence].
  destruct (value_eq_dec v v'); [left|right]; congruence.
Defined.

(** The cell in column [c]; a missing column reads as null. *)
Definition getv (c : string) (r : rec) : value :=
  match dget c r with Some v => v | None => VNull end.

Definition has_value (c : string) (v : value) (r : rec) : bool := value_eqb (getv c r) v.

(** How often a row occurs, and when two tables are the same bag. *)
Definition occurs (t : table) (r : rec) : nat := count_occ rec_eq_dec t r.
Definition same_table (a b : table) : Prop := Permutation a b.
(** [a] is obtained from [b] by dropping rows. *)
Definition sub_table (a b : table) : Prop := forall r, occurs a r <= occurs b r.

Definition absdiff (a b : nat) : nat := (a - b) + (b - a).
(** Number of rows that must be added to or removed from [a] to get [b]. *)
Definition row_distance (a b : table) : nat :=
  list_sum (map (fun r => absdiff (occurs a r) (occurs b r)) (nodup rec_eq_dec (a ++ b))).

(** ** Orders and sorting *)
Record order (A : Type) : Type := {
  ole : A -> A -> bool;
  ole_total : forall x y, ole x y = true \/ ole y x = true;
  ole_trans : forall x y z, ole x y = true -> ole y z = true -> ole x z = true;
  ole_antisym : forall x y, ole x y = true -> ole y x = true -> x = y
}.
Arguments ole {A} o x y.

Section Sort.
Context {A : Type} (le : A -> A -> bool).
Fixpoint insert (x : A) (l : list A) : list A :=
  match l with
  | [] => [x]
  | y :: t => if le x y then x :: l else y :: insert x t
  end.
(** A stable sort (list.sort in Python, ORDER BY in Spark). *)
Definition isort (l : list A) : list A := fold_right insert [] l.
End Sort.

Inductive sorted {A} (le : A -> A -> bool) : list A -> Prop :=
| sorted_nil : sorted le []
| sorted_cons x l : (forall y, In y l -> le x y = true) -> sorted le l -> sorted le (x :: l).

Lemma insert_perm {A} (le : A -> A -> bool) x l : Permutation (insert le x l) (x :: l).
Proof.
  induction l as [|y t IH]; simpl; [reflexivity|].
  destruct (le x y); [reflexivity|]. rewrite IH. apply perm_swap.
Qed.
Lemma isort_perm {A} (le : A -> A -> bool) l : Permutation (isort le l) l.
Proof.
  induction l as [|x t IH]; simpl; [reflexivity|]. rewrite insert_perm, IH. reflexivity.
Qed.

Lemma insert_sorted {A} (le : A -> A -> bool) :
  (forall x y, le x y = true \/ le y x = true) ->
  (forall x y z, le x y = true -> le y z = true -> le x z = true) ->
  forall x l, sorted le l -> sorted le (insert le x l).
Proof.
  intros T R x l. induction l as [|y t IH]; simpl; intros S.
  - constructor; [simpl; tauto|constructor].
  - inversion S as [|? ? H1 H2]; subst. destruct (le x y) eqn:E.
    + constructor; [|assumption]. intros z [<-|Hz]; [assumption|]. apply (R x y z); auto.
    + assert (le y x = true) by (destruct (T x y); congruence).
      constructor; [|auto]. intros z Hz.
      apply (Permutation_in _ (insert_perm le x t)) in Hz. destruct Hz as [<-|Hz]; auto.
Qed.
Lemma isort_sorted_gen {A} (le : A -> A -> bool) :
  (forall x y, le x y = true \/ le y x = true) ->
  (forall x y z, le x y = true -> le y z = true -> le x z = true) ->
  forall l, sorted le (isort le l).
Proof.
  intros T R l. induction l as [|x t IH]; simpl; [constructor|]. apply insert_sorted; assumption.
Qed.

Section Ord.
Context {A : Type} (O : order A).
Lemma isort_sorted l : sorted (ole O) (isort (ole O) l).
Proof. apply isort_sorted_gen; [apply ole_total|apply ole_trans]. Qed.

Lemma sorted_unique l l' :
  sorted (ole O) l -> sorted (ole O) l' -> Permutation l l' -> l = l'.
Proof.
  intros S. revert l'. induction S as [|x l H S IH]; intros l' S' P.
  - apply Permutation_nil in P. auto.
  - destruct S' as [|y l' H' S']; [apply Permutation_sym, Permutation_nil in P; discriminate|].
    assert (x = y).
    { assert (X : In x (y :: l')) by (apply (Permutation_in _ P); simpl; auto).
      assert (Y : In y (x :: l)) by (apply (Permutation_in _ (Permutation_sym P)); simpl; auto).
      destruct X as [X|X]; [auto|]. destruct Y as [Y|Y]; [auto|].
      apply (ole_antisym _ O); auto. }
    subst y. f_equal. apply IH; [assumption|]. apply (Permutation_cons_inv P).
Qed.

Lemma isort_same l l' : Permutation l l' -> isort (ole O) l = isort (ole O) l'.
Proof.
  intros P. apply sorted_unique; try apply isort_sorted.
  rewrite !isort_perm. assumption.
Qed.
End Ord.

Lemma sorted_filter {A} (le : A -> A -> bool) p l : sorted le l -> sorted le (filter p l).
Proof.
  induction 1 as [|x l H S IH]; simpl; [constructor|].
  destruct (p x); [|assumption]. constructor; [|assumption].
  intros y Hy. apply filter_In in Hy as [Hy _]. auto.
Qed.

Lemma Permutation_filter {A} (p : A -> bool) l l' :
  Permutation l l' -> Permutation (filter p l) (filter p l').
Proof.
  induction 1 as [|x l l' P IH|x y l|l l1 l2 P1 IH1 P2 IH2]; simpl.
  - constructor.
  - destruct (p x); [constructor|]; assumption.
  - destruct (p x), (p y); try reflexivity. apply perm_swap.
  - etransitivity; eassumption.
Qed.

Lemma isort_filter {A} (O : order A) p l :
  filter p (isort (ole O) l) = isort (ole O) (filter p l).
Proof.
  apply (sorted_unique O).
  - apply sorted_filter, isort_sorted.
  - apply isort_sorted.
  - rewrite (isort_perm _ (filter p l)). apply Permutation_filter, isort_perm.
Qed.

(** *** A concrete total order on rows and on values, to show that orders exist. *)
Section Lex.
Context {A : Type} (O : order A).
Fixpoint lexle (a b : list A) : bool :=
  match a, b with
  | [], _ => true
  | _ :: _, [] => false
  | x :: a', y :: b' => if ole O x y then if ole O y x then lexle a' b' else true else false
  end.
Lemma lexle_total x y : lexle x y = true \/ lexle y x = true.
Proof.
  revert y; induction x as [|a x IH]; intros [|b y]; simpl; auto.
  destruct (ole O a b) eqn:E1, (ole O b a) eqn:E2; auto.
  destruct (ole_total _ O a b); congruence.
Qed.
Lemma lexle_antisym x y : lexle x y = true -> lexle y x = true -> x = y.
Proof.
  revert y; induction x as [|a x IH]; intros [|b y]; simpl; auto; try discriminate.
  destruct (ole O a b) eqn:E1, (ole O b a) eqn:E2; intros H1 H2; try discriminate.
  f_equal; [apply (ole_antisym _ O); assumption|auto].
Qed.
Lemma lexle_trans x y z : lexle x y = true -> lexle y z = true -> lexle x z = true.
Proof.
  revert y z; induction x as [|a x IH]; intros [|b y] [|c z]; simpl; auto; try discriminate.
  destruct (ole O a b) eqn:E1; [|discriminate]. destruct (ole O b c) eqn:E2; [|discriminate].
  rewrite (ole_trans _ O a b c E1 E2). destruct (ole O b a) eqn:E3.
  - assert (a = b) by (apply (ole_antisym _ O); assumption). subst b.
    destruct (ole O c a); [apply IH|auto].
  - intros _ _. destruct (ole O c a) eqn:E4; [|reflexivity].
    rewrite (ole_trans _ O b c a E2 E4) in E3. discriminate.
Qed.
Definition lex_order : order (list A) :=
  {| ole := lexle; ole_total := lexle_total; ole_trans := lexle_trans;
     ole_antisym := lexle_antisym |}.
End Lex.

Definition pull_order {A B} (O : order B) (f : A -> B) (I : forall x y, f x = f y -> x = y) : order A.
Proof.
  refine {| ole := fun x y => ole O (f x) (f y) |}.
  - intros; apply ole_total.
  - intros x y z; apply (ole_trans _ O).
  - intros x y H1 H2. apply I, (ole_antisym _ O); assumption.
Defined.

Definition Z_order : order Z.
Proof.
  refine {| ole := Z.leb |}.
  - intros x y. rewrite !Z.leb_le. lia.
  - intros x y z. rewrite !Z.leb_le. lia.
  - intros x y. rewrite !Z.leb_le. lia.
Defined.

Definition str_codes (s : string) : list Z := map (fun c => Z.of_nat (nat_of_ascii c)) (list_ascii_of_string s).
Lemma str_codes_inj s s' : str_codes s = str_codes s' -> s = s'.
Proof.
  unfold str_codes. intros H.
  rewrite <- (string_of_list_ascii_of_string s), <- (string_of_list_ascii_of_string s').
  f_equal. revert H. generalize (list_ascii_of_string s) (list_ascii_of_string s').
  induction l as [|a l IH]; intros [|b l'] H; simpl in *; try discriminate; [reflexivity|].
  inversion H as [[H1 H2]]. apply Nat2Z.inj in H1.
  f_equal; [|auto]. rewrite <- (ascii_nat_embedding a), H1. apply ascii_nat_embedding.
Qed.

Definition val_codes (v : value) : list Z :=
  (match v with
  | VNull => [0]
  | VInt z => [1; z]
  | VFloat (FFin q) => [2; Qnum (this q); Zpos (Qden (this q))]
  | VFloat FPInf => [3]
  | VFloat FNInf => [4]
  | VFloat FNan => [5]
  | VStr s => 6 :: str_codes s
  | VDate d => [7; d]
  | VTime t => [8; t]
  end)%Z.
Lemma val_codes_inj v v' : val_codes v = val_codes v' -> v = v'.
Proof.
  destruct v as [|z|[q| | |]|s|d|t], v' as [|z'|[q'| | |]|s'|d'|t']; cbn; intros H;
    try discriminate H; try (inversion H; reflexivity).
  - inversion H as [[H1 H2]]. do 2 f_equal. apply Qc_is_canon. unfold Qeq.
    rewrite H1, H2. reflexivity.
  - inversion H as [[H1]]. f_equal. apply str_codes_inj, H1.
Qed.
Definition value_order : order value := pull_order (lex_order Z_order) val_codes val_codes_inj.

Definition rec_codes (r : rec) : list (list Z) :=
  flat_map (fun p => [str_codes (fst p); val_codes (snd p)]) r.
Lemma rec_codes_inj r r' : rec_codes r = rec_codes r' -> r = r'.
Proof.
  revert r'; induction r as [|[k v] r IH]; intros [|[k' v'] r'] H; cbn in H;
    try discriminate H; [reflexivity|].
  inversion H as [[H1 H2 H3]]. apply str_codes_inj in H1. apply val_codes_inj in H2. subst.
  f_equal. apply IH, H3.
Qed.
Definition rec_order : order rec := pull_order (lex_order (lex_order Z_order)) rec_codes rec_codes_inj.

(** ** Counting *)
Lemma filter_filter {A} (p q : A -> bool) l : filter p (filter q l) = filter (fun x => q x && p x) l.
Proof.
  induction l as [|x t IH]; simpl; [reflexivity|].
  destruct (q x); simpl; [destruct (p x); rewrite IH|]; auto.
Qed.
Lemma filter_true {A} (p : A -> bool) l : (forall x, In x l -> p x = true) -> filter p l = l.
Proof.
  induction l as [|x t IH]; simpl; intros H; [reflexivity|].
  rewrite (H x) by auto. f_equal. apply IH. auto.
Qed.
Lemma filter_none {A} (p : A -> bool) l : (forall x, In x l -> p x = false) -> filter p l = [].
Proof.
  induction l as [|x t IH]; simpl; intros H; [reflexivity|].
  rewrite (H x) by auto. apply IH. auto.
Qed.
Lemma filter_length_le {A} (p : A -> bool) l : length (filter p l) <= length l.
Proof. induction l as [|x t IH]; simpl; [lia|]. destruct (p x); simpl; lia. Qed.

Lemma occurs_filter p t r : occurs (filter p t) r = if p r then occurs t r else 0.
Proof.
  unfold occurs. induction t as [|x t IH]; simpl; [destruct (p r); reflexivity|].
  destruct (p x) eqn:E; simpl; destruct (rec_eq_dec x r) as [->|N]; rewrite ?E in *; auto.
Qed.
Lemma occurs_app a b r : occurs (a ++ b) r = occurs a r + occurs b r.
Proof. apply count_occ_app. Qed.
Lemma same_table_occurs a b : same_table a b <-> forall r, occurs a r = occurs b r.
Proof. apply (Permutation_count_occ rec_eq_dec). Qed.
Lemma sub_table_filter p t : sub_table (filter p t) t.
Proof. intros r. rewrite occurs_filter. destruct (p r); lia. Qed.
Lemma sub_table_trans a b c : sub_table a b -> sub_table b c -> sub_table a c.
Proof. intros H1 H2 r. specialize (H1 r). specialize (H2 r). lia. Qed.
Lemma sub_table_In a b r : sub_table a b -> In r a -> In r b.
Proof.
  intros H I. apply (count_occ_In rec_eq_dec) in I. apply (count_occ_In rec_eq_dec).
  specialize (H r). unfold occurs in H. lia.
Qed.
Lemma same_sub a b : same_table a b -> sub_table a b.
Proof. rewrite same_table_occurs. intros H r. rewrite H. lia. Qed.

Lemma list_sum_le {A} (f g : A -> nat) l : (forall x, In x l -> f x <= g x) ->
  list_sum (map f l) <= list_sum (map g l).
Proof.
  induction l as [|x t IH]; simpl; intros H; [lia|].
  specialize (IH (fun y Hy => H y (or_intror Hy))). specialize (H x (or_introl eq_refl)). lia.
Qed.
Lemma list_sum_add {A} (f g : A -> nat) l :
  list_sum (map (fun x => f x + g x) l) = list_sum (map f l) + list_sum (map g l).
Proof. induction l as [|x t IH]; simpl; lia. Qed.
Lemma list_sum_zero {A} (f : A -> nat) l : (forall x, In x l -> f x = 0) -> list_sum (map f l) = 0.
Proof. induction l as [|x t IH]; simpl; intros H; [reflexivity|]. rewrite (H x), IH; auto. Qed.
Lemma list_sum_ext {A} (f g : A -> nat) l : (forall x, In x l -> f x = g x) ->
  list_sum (map f l) = list_sum (map g l).
Proof. intros H. f_equal. apply map_ext_in, H. Qed.
Lemma list_sum_perm l l' : Permutation l l' -> list_sum l = list_sum l'.
Proof. induction 1; simpl; lia. Qed.

(** Summing over a larger duplicate-free support adds only zeros. *)
Lemma list_sum_support {A} (f : A -> nat) (s s' : list A) :
  NoDup s -> NoDup s' -> incl s s' -> (forall x, In x s' -> ~ In x s -> f x = 0) ->
  list_sum (map f s) = list_sum (map f s').
Proof.
  revert s'; induction s as [|x s IH]; intros s' N N' I Z.
  - simpl. symmetry. apply list_sum_zero. intros y Hy. apply Z; auto.
  - assert (Hx : In x s') by (apply I; simpl; auto).
    apply in_split in Hx as (l1 & l2 & ->).
    inversion N as [|? ? N1 N2]; subst.
    transitivity (list_sum (map f (x :: l1 ++ l2))).
    + simpl. f_equal. apply IH; [assumption|apply (NoDup_remove_1 _ _ _ N')| |].
      * intros y Hy. assert (Y : In y (l1 ++ x :: l2)) by (apply I; simpl; auto).
        rewrite in_app_iff in *. simpl in Y. destruct Y as [Y|[->|Y]]; auto. contradiction.
      * intros y Hy Ny. apply Z.
        -- rewrite in_app_iff in *; simpl; tauto.
        -- simpl. intros [->|H]; [|contradiction]. apply (NoDup_remove_2 _ _ _ N'). assumption.
    + apply list_sum_perm, Permutation_map, Permutation_middle.
Qed.

Lemma row_distance_support a b s : NoDup s -> incl (a ++ b) s ->
  row_distance a b = list_sum (map (fun r => absdiff (occurs a r) (occurs b r)) s).
Proof.
  intros N I. unfold row_distance. apply list_sum_support; [apply NoDup_nodup|assumption| |].
  - intros x Hx. apply I. apply nodup_In in Hx. assumption.
  - intros x _ Hx. rewrite nodup_In, in_app_iff in Hx. unfold occurs, absdiff.
    rewrite !(proj1 (count_occ_not_In rec_eq_dec _ _)); [reflexivity| |]; tauto.
Qed.

Lemma row_distance_triangle a b c : row_distance a c <= row_distance a b + row_distance b c.
Proof.
  set (s := nodup rec_eq_dec (a ++ b ++ c)).
  assert (N : NoDup s) by apply NoDup_nodup.
  assert (forall x, In x a -> In x s) by (intros; apply nodup_In; rewrite !in_app_iff; auto).
  assert (forall x, In x b -> In x s) by (intros; apply nodup_In; rewrite !in_app_iff; auto).
  assert (forall x, In x c -> In x s) by (intros; apply nodup_In; rewrite !in_app_iff; auto).
  rewrite (row_distance_support a b s), (row_distance_support b c s), (row_distance_support a c s);
    try (assumption || (intros x Hx; apply in_app_iff in Hx as [|]; auto)).
  rewrite <- list_sum_add. apply list_sum_le. intros r _. unfold absdiff. lia.
Qed.
Lemma row_distance_sym a b : row_distance a b = row_distance b a.
Proof.
  rewrite (row_distance_support b a (nodup rec_eq_dec (a ++ b))).
  - apply list_sum_ext. intros; unfold absdiff; lia.
  - apply NoDup_nodup.
  - intros x Hx. apply nodup_In. rewrite in_app_iff in *. tauto.
Qed.
Lemma row_distance_same a b : same_table a b -> row_distance a b = 0.
Proof.
  rewrite same_table_occurs. intros H. apply list_sum_zero. intros r _. rewrite H. unfold absdiff. lia.
Qed.
Lemma row_distance_same_l a a' b : same_table a a' -> row_distance a b = row_distance a' b.
Proof.
  intros H. pose proof (row_distance_same _ _ H). pose proof (row_distance_same _ _ (Permutation_sym H)).
  pose proof (row_distance_triangle a a' b). pose proof (row_distance_triangle a' a b). lia.
Qed.
Lemma row_distance_same_r a b b' : same_table b b' -> row_distance a b = row_distance a b'.
Proof. intros H. rewrite (row_distance_sym a b), (row_distance_sym a b'). apply row_distance_same_l, H. Qed.

Lemma length_occurs t s : NoDup s -> incl t s -> length t = list_sum (map (occurs t) s).
Proof.
  intros N I. induction t as [|x t IH].
  - simpl. symmetry. apply list_sum_zero. reflexivity.
  - simpl. rewrite IH by (intros y Hy; apply I; simpl; auto).
    assert (Hx : In x s) by (apply I; simpl; auto).
    apply in_split in Hx as (l1 & l2 & ->).
    assert (Nx := NoDup_remove_2 _ _ _ N). rewrite in_app_iff in Nx.
    rewrite !map_app, !list_sum_app. cbn [map]. cbn [list_sum fold_right]. fold list_sum.
    assert (E : forall l, ~ In x l -> map (occurs (x :: t)) l = map (occurs t) l).
    { intros l Hl. apply map_ext_in. intros y Hy. unfold occurs. simpl.
      destruct (rec_eq_dec x y); [subst; contradiction|reflexivity]. }
    assert (X : occurs (x :: t) x = S (occurs t x)).
    { unfold occurs. simpl. destruct (rec_eq_dec x x); congruence. }
    rewrite !E by tauto. rewrite X. lia.
Qed.

(** Dropping rows: the distance is the number of rows dropped. *)
Lemma row_distance_filter t p :
  row_distance t (filter p t) = length (filter (fun r => negb (p r)) t).
Proof.
  set (s := nodup rec_eq_dec t).
  assert (N : NoDup s) by apply NoDup_nodup.
  assert (I : incl t s) by (intros x Hx; apply nodup_In; assumption).
  rewrite (row_distance_support t (filter p t) s); [|assumption|].
  - rewrite (length_occurs _ s); [|assumption|].
    + apply list_sum_ext. intros r _. rewrite !occurs_filter. unfold absdiff.
      destruct (p r); simpl; lia.
    + intros x Hx. apply filter_In in Hx as [Hx _]. auto.
  - intros x Hx. apply in_app_iff in Hx as [Hx|Hx]; [auto|]. apply filter_In in Hx as [Hx _]. auto.
Qed.

Lemma sub_table_length a b : sub_table a b -> length a <= length b.
Proof.
  intros H. set (s := nodup rec_eq_dec (a ++ b)).
  rewrite (length_occurs a s), (length_occurs b s); try apply NoDup_nodup.
  - apply list_sum_le. intros; apply H.
  - intros x Hx; apply nodup_In, in_app_iff; auto.
  - intros x Hx; apply nodup_In, in_app_iff; auto.
Qed.

Lemma sub_table_same a b : sub_table a b -> length b <= length a -> same_table a b.
Proof.
  intros H L. apply same_table_occurs.
  set (s := nodup rec_eq_dec (a ++ b)).
  rewrite (length_occurs a s), (length_occurs b s) in L; try apply NoDup_nodup;
    try (intros x Hx; apply nodup_In, in_app_iff; auto).
  assert (K : forall r, In r s -> occurs a r = occurs b r).
  { clearbody s. induction s as [|x s IH]; simpl in *; [tauto|].
    assert (list_sum (map (occurs a) s) <= list_sum (map (occurs b) s))
      by (apply list_sum_le; intros; apply H).
    pose proof (H x). intros r [<-|Hr]; [lia|]. apply IH; [lia|assumption]. }
  intros r. destruct (in_dec rec_eq_dec r s) as [Hr|Hr]; [auto|].
  unfold s in Hr. rewrite nodup_In, in_app_iff in Hr. unfold occurs.
  rewrite !(proj1 (count_occ_not_In rec_eq_dec _ _)); [reflexivity| |]; tauto.
Qed.
