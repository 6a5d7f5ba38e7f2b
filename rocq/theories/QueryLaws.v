(** Two ways of writing a table query: laws of the operations, and everything that follows
    from them by replacing parts of queries.  Specification of C74, and proofs. *)
From Coq Require Import String Bool Arith ZArith QArith Qcanon Lia Permutation List.
From Verif Require Import Prelude Value Rows Constraints ConstraintsSpec ConstraintsProofs Schema SchemaProofs Query Transform
  TransformSpec TransformConform QuerySame QueryLike RewriteSpec RewriteProofs.
From Verif Require AnswerSchema.
Import ListNotations.
Local Open Scope string_scope.
Local Open Scope nat_scope.

(** ** Specification *)

Section Spec.
Variables (W : world) (l2 : bool) (cat : catalog) (data : dict vtab).

(** A condition of a filter looks at the columns [cols] only. *)
Definition reads (cond : string) (cols : list string) : Prop :=
  forall r r' : rec, (forall c, In c cols -> getv c r = getv c r') -> w_cond_holds W cond r = w_cond_holds W cond r'.
Definition bounded (c : constraint) (m : nat) : constraint :=
  match c with
  | MaxRowsPerID _ => MaxRowsPerID m
  | MaxGroupsPerID g _ => MaxGroupsPerID g m
  | MaxRowsPerGroupPerID g _ => MaxRowsPerGroupPerID g m
  end.
(** The columns of two declarations, one after the other. *)
Definition both_new (n n' : schema) : schema :=
  {| sc_cols := (sc_cols n ++ sc_cols n')%list; sc_group := None; sc_id := None; sc_space := None |}.
(** First [f], then [g] on the row with the columns that [f] added. *)
Definition one_function (f g : rec -> rec) (n n' : schema) (r : rec) : rec :=
  let row := merge r (map (fun c => (c, getv c (f r))) (dkeys (sc_cols n))) in
  (map (fun c => (c, getv c (f r))) (dkeys (sc_cols n)) ++ map (fun c => (c, getv c (g row))) (dkeys (sc_cols n')))%list.

Inductive law : query -> query -> Prop :=
(** filters: in any order, and once is enough *)
| law_filters c a b : law (Filter (Filter c a) b) (Filter (Filter c b) a)
| law_filter_twice c a : law (Filter (Filter c a) a) (Filter c a)
(** filters before or after selecting, renaming, mapping and dropping *)
| law_filter_select c cols a ks : reads a ks -> incl ks cols ->
    law (Filter (Select c cols) a) (Select (Filter c a) cols)
| law_filter_rename c m a ks : reads a ks -> (forall k, In k ks -> ~ In k (dkeys m) /\ ~ In k (map snd m)) ->
    law (Filter (Rename c m) a) (Rename (Filter c a) m)
| law_filter_map c f n a ks : NoDup (dkeys (sc_cols n)) -> reads a ks -> (forall k, In k ks -> ~ In k (dkeys (sc_cols n))) ->
    law (Filter (MapQ c f n true) a) (MapQ (Filter c a) f n true)
| law_filter_drop_null c l a : law (Filter (DropNullAndNan c l) a) (DropNullAndNan (Filter c a) l)
| law_filter_drop_inf c l a : law (Filter (DropInfinity c l) a) (DropInfinity (Filter c a) l)
(** filters before or after replacing in other columns, adding columns in several rows, and
    joining with a public table by the columns the filter reads *)
| law_filter_replace_null c rw a ks : rw <> [] -> reads a ks -> (forall k, In k ks -> ~ In k (dkeys rw)) ->
    law (Filter (ReplaceNullAndNan c rw) a) (ReplaceNullAndNan (Filter c a) rw)
| law_filter_replace_inf c rw a ks : rw <> [] -> reads a ks -> (forall k, In k ks -> ~ In k (dkeys rw)) ->
    law (Filter (ReplaceInfinity c rw) a) (ReplaceInfinity (Filter c a) rw)
| law_filter_flat_map c f n mr a ks : NoDup (dkeys (sc_cols n)) -> reads a ks -> (forall k, In k ks -> ~ In k (dkeys (sc_cols n))) ->
    law (Filter (FlatMap c f n true mr) a) (FlatMap (Filter c a) f n true mr)
| law_filter_join_public c p on how a ks : reads a ks -> incl ks on ->
    law (Filter (JoinPublic c p (Some on) how) a) (JoinPublic (Filter c a) p (Some on) how)
(** filters before or after joining with another private table with IDs by the columns the filter
    reads; sources may have several bounds of the same kind, of which a join takes the first and
    a filter keeps the smallest *)
| law_filter_join_private l r on a ks : (forall n, l <> PrivateSource n) -> reads a ks -> incl ks on ->
    law (Filter (JoinPrivate l r None None (Some on)) a) (JoinPrivate (Filter l a) r None None (Some on))
| law_filter_join_private_right l r on a ks : (forall n, r <> PrivateSource n) -> reads a ks -> incl ks on ->
    law (Filter (JoinPrivate l r None None (Some on)) a) (JoinPrivate l (Filter r a) None None (Some on))
(** selections: only the last one counts *)
| law_selects c l l' : law (Select (Select c l) l') (Select c l')
(** dropping: of all columns at once, listed in any order; missing values before or after infinite ones *)
| law_drop_nulls c l l' : l <> [] -> l' <> [] -> law (DropNullAndNan (DropNullAndNan c l) l') (DropNullAndNan c (l ++ l')%list)
| law_drop_null_set c l l' : l <> [] -> incl l l' -> incl l' l -> law (DropNullAndNan c l) (DropNullAndNan c l')
| law_drop_infs c l l' : l <> [] -> l' <> [] -> law (DropInfinity (DropInfinity c l) l') (DropInfinity c (l ++ l')%list)
| law_drop_inf_set c l l' : l <> [] -> incl l l' -> incl l' l -> law (DropInfinity c l) (DropInfinity c l')
| law_drop_null_inf c l l' : law (DropNullAndNan (DropInfinity c l) l') (DropInfinity (DropNullAndNan c l') l)
(** after replacing the missing or infinite values of some columns there is nothing to drop in them *)
| law_replace_drop_null c rw l : l <> [] -> rw <> [] -> incl l (dkeys rw) -> law (DropNullAndNan (ReplaceNullAndNan c rw) l) (ReplaceNullAndNan c rw)
| law_replace_drop_inf c rw l : l <> [] -> rw <> [] -> incl l (dkeys rw) -> Forall (fun p => is_inf (VFloat (fst (snd p))) = false /\ is_inf (VFloat (snd (snd p))) = false) rw ->
    law (DropInfinity (ReplaceInfinity c rw) l) (ReplaceInfinity c rw)
(** two maps that add columns are one *)
| law_maps c f n g n' : law (MapQ (MapQ c f n true) g n' true) (MapQ c (one_function f g n n') (both_new n n') true)
(** added columns that are not selected do not matter *)
| law_map_unused c f n l : NoDup (dkeys (sc_cols n)) -> (forall k, In k l -> ~ In k (dkeys (sc_cols n))) -> law (Select (MapQ c f n true) l) (Select c l)
(** of two bounds of the same kind, the smaller one counts *)
| law_enforce c k m m' : law (EnforceConstraint (EnforceConstraint c (bounded k m)) (bounded k m')) (EnforceConstraint c (bounded k (Nat.min m m'))).

(** A query that is accepted and can be computed. *)
Definition computed (q : query) : Prop :=
  exists s x, schema_of (w_cond_ok W) cat q = Ok s /\ visit W l2 cat data q = Ok x.

(** Everything that follows: a law may be used in either direction, in any part of a query,
    any number of times. *)
Inductive same : query -> query -> Prop :=
| same_refl q : same q q
| same_sym q q' : same q q' -> same q' q
| same_trans q q' q'' : same q q' -> same q' q'' -> same q q''
| same_law q q' : law q q' -> computed q -> computed q' -> same q q'
| same_rename c c' m : same c c' -> same (Rename c m) (Rename c' m)
| same_filter c c' s : same c c' -> same (Filter c s) (Filter c' s)
| same_select c c' l : same c c' -> same (Select c l) (Select c' l)
| same_map c c' f n a : same c c' -> same (MapQ c f n a) (MapQ c' f n a)
| same_flat_map c c' f n a mr : same c c' -> same (FlatMap c f n a mr) (FlatMap c' f n a mr)
| same_by_id c c' f n : same c c' -> same (FlatMapByID c f n) (FlatMapByID c' f n)
| same_join_private c c' d d' tl tr on : same c c' -> same d d' -> same (JoinPrivate c d tl tr on) (JoinPrivate c' d' tl tr on)
| same_join_public c c' p on how : same c c' -> same (JoinPublic c p on how) (JoinPublic c' p on how)
| same_nulls c c' rw : same c c' -> same (ReplaceNullAndNan c rw) (ReplaceNullAndNan c' rw)
| same_infs c c' rw : same c c' -> same (ReplaceInfinity c rw) (ReplaceInfinity c' rw)
| same_drop_nulls c c' l : same c c' -> same (DropNullAndNan c l) (DropNullAndNan c' l)
| same_drop_infs c c' l : same c c' -> same (DropInfinity c l) (DropInfinity c' l)
| same_enforce c c' k : same c c' -> same (EnforceConstraint c k) (EnforceConstraint c' k).

(** What is proved of both: the same schema and the same table, up to the order of rows, with
    the same constraints; or the same exception. *)
Definition alike (q q' : query) : Prop :=
  schema_of (w_cond_ok W) cat q = schema_of (w_cond_ok W) cat q'
  /\ outcome_like (visit W l2 cat data q) (visit W l2 cat data q').
End Spec.

(** ** Parts of queries *)

Lemma tab_like_refl t : tab_like t t.
Proof. repeat split; auto. Qed.
Lemma tab_like_sym t t' : tab_like t t' -> tab_like t' t.
Proof. intros (A & B & C & D). repeat split; auto. now apply Permutation_sym. Qed.
Lemma tab_like_trans t t' t'' : tab_like t t' -> tab_like t' t'' -> tab_like t t''.
Proof. intros (A & B & C & D) (A' & B' & C' & D'). repeat split; try congruence. now transitivity (v_rows t'). Qed.
Lemma outcome_refl x : outcome_like x x.
Proof. destruct x as [[t cs]|e]; cbn; auto using tab_like_refl. Qed.
Lemma outcome_sym x y : outcome_like x y -> outcome_like y x.
Proof. destruct x as [[t cs]|e], y as [[t' cs']|e']; cbn; try tauto; [|congruence]. intros (A & B). split; [now apply tab_like_sym|congruence]. Qed.
Lemma outcome_trans x y z : outcome_like x y -> outcome_like y z -> outcome_like x z.
Proof.
  destruct x as [[t cs]|e], y as [[t' cs']|e'], z as [[u ds]|e'']; cbn; try tauto; try congruence.
  intros (A & B) (C & D). split; [now apply (tab_like_trans _ t')|congruence].
Qed.

Section Parts.
Variables (W : world) (l2 : bool) (cat : catalog) (data : dict vtab).
Notation alike := (alike W l2 cat data).

(** An operation on a computed table, as a query on a table of its own. *)
Definition hole_cat (cs : list constraint) : catalog :=
  {| cat_private := [("h", ({| sc_cols := []; sc_group := None; sc_id := None; sc_space := None |}, cs))]; cat_public := cat_public cat |}.
Lemma op_like (op : query -> query) f :
  (forall cat' data' c, cat_public cat' = cat_public cat -> visit W l2 cat' data' (op c) = let* x := visit W l2 cat' data' c in f x) ->
  forall x y, outcome_like x y -> outcome_like (bind x f) (bind y f).
Proof.
  intros F x y O. apply oc_bind2 with (1 := O). intros t t' cs L.
  pose proof (visit_like W l2 (hole_cat cs) (hole_cat cs) [("h", t)] [("h", t')] (catalog_like_refl _)) as V.
  specialize (V ltac:(intros s; cbn [dget]; destruct (String.eqb s "h"); [exact L|exact Logic.I]) (op (PrivateSource "h")) (op (PrivateSource "h")) (like_refl _)).
  rewrite !(F (hole_cat cs)) in V by reflexivity. exact V.
Qed.

Theorem alike_part q q' : same W l2 cat data q q' -> (forall q q', law W q q' -> computed W l2 cat data q -> computed W l2 cat data q' -> alike q q') -> alike q q'.
Proof.
  intros S L. induction S; unfold alike in *.
  - split; [reflexivity|apply outcome_refl].
  - destruct IHS as (A & B). split; [congruence|now apply outcome_sym].
  - destruct IHS1 as (A & B), IHS2 as (C & D). split; [congruence|now apply (outcome_trans _ (visit W l2 cat data q'))].
  - now apply L.
  - destruct IHS as (A & B). split; [cbn [schema_of]; now rewrite A|]. exact (op_like (fun c => Rename c m) _ ltac:(reflexivity) _ _ B).
  - destruct IHS as (A & B). split; [cbn [schema_of]; now rewrite A|]. exact (op_like (fun c => Filter c s) _ ltac:(reflexivity) _ _ B).
  - destruct IHS as (A & B). split; [cbn [schema_of]; now rewrite A|]. exact (op_like (fun c => Select c l) _ ltac:(reflexivity) _ _ B).
  - destruct IHS as (A & B). split; [cbn [schema_of]; now rewrite A|]. exact (op_like (fun c => MapQ c f n a) _ ltac:(reflexivity) _ _ B).
  - destruct IHS as (A & B). split; [cbn [schema_of]; now rewrite A|]. exact (op_like (fun c => FlatMap c f n a mr) _ ltac:(reflexivity) _ _ B).
  - destruct IHS as (A & B). split; [cbn [schema_of]; now rewrite A|]. exact (op_like (fun c => FlatMapByID c f n) _ ltac:(reflexivity) _ _ B).
  - destruct IHS1 as (A & B), IHS2 as (C & D). split; [cbn [schema_of]; now rewrite A, C|]. cbn [visit].
    apply oc_bind2 with (1 := B). intros t t' cs LT. apply oc_bind2 with (1 := D). intros u u' ds LU. now apply op_join_private.
  - destruct IHS as (A & B). split; [cbn [schema_of]; now rewrite A|]. cbn [visit].
    apply oc_bind2 with (1 := B). intros t t' cs LT. apply op_join_public; [apply catalog_like_refl| |exact LT]. destruct p; cbn; [reflexivity|apply frame_like_refl].
  - destruct IHS as (A & B). split; [cbn [schema_of]; now rewrite A|]. exact (op_like (fun c => ReplaceNullAndNan c rw) _ ltac:(reflexivity) _ _ B).
  - destruct IHS as (A & B). split; [cbn [schema_of]; now rewrite A|]. exact (op_like (fun c => ReplaceInfinity c rw) _ ltac:(reflexivity) _ _ B).
  - destruct IHS as (A & B). split; [cbn [schema_of]; now rewrite A|]. exact (op_like (fun c => DropNullAndNan c l) _ ltac:(reflexivity) _ _ B).
  - destruct IHS as (A & B). split; [cbn [schema_of]; now rewrite A|]. exact (op_like (fun c => DropInfinity c l) _ ltac:(reflexivity) _ _ B).
  - destruct IHS as (A & B). split; [cbn [schema_of]; now rewrite A|]. exact (op_like (fun c => EnforceConstraint c k) _ ltac:(reflexivity) _ _ B).
Qed.
End Parts.

(** ** The laws *)

Lemma filter_swap {A} (p q : A -> bool) l : filter p (filter q l) = filter q (filter p l).
Proof. induction l as [|x l IH]; [reflexivity|]. cbn [filter]. destruct (q x) eqn:Q, (p x) eqn:P; cbn [filter]; rewrite ?P, ?Q, IH; reflexivity. Qed.
Lemma filter_twice {A} (p : A -> bool) l : filter p (filter p l) = filter p l.
Proof. induction l as [|x l IH]; [reflexivity|]. cbn [filter]. destruct (p x) eqn:P; cbn [filter]; rewrite ?P, IH; reflexivity. Qed.
Lemma filter_map_comm {A B} (f : A -> B) (p : B -> bool) (q : A -> bool) l : (forall x, p (f x) = q x) -> filter p (map f l) = map f (filter q l).
Proof. intros H. induction l as [|x l IH]; [reflexivity|]. cbn [filter map]. rewrite H. destruct (q x); cbn [map]; now rewrite IH. Qed.
Lemma getv_select cols r c : In c cols -> getv c (select_row cols r) = getv c r.
Proof.
  intros I. unfold getv at 1, select_row. induction cols as [|d cols IH]; [destruct I|]. cbn [map dget].
  destruct (String.eqb_spec c d) as [->|N]; [reflexivity|]. destruct I as [->|I]; [contradiction|]. now apply IH.
Qed.
Lemma getv_rename m r c : ~ In c (dkeys m) -> ~ In c (map snd m) -> getv c (rename_row m r) = getv c r.
Proof.
  intros N1 N2. unfold getv, rename_row. induction r as [|[k v] r IH]; [reflexivity|]. cbn [map dget fst snd].
  assert (E : String.eqb c (renamed m k) = String.eqb c k).
  { unfold renamed. destruct (dget k m) as [n|] eqn:D; [|reflexivity].
    assert (In n (map snd m)) by (apply dget_In in D; apply in_map_iff; exists (k, n); auto).
    assert (In k (dkeys m)) by (apply dget_In in D; apply in_map_iff; exists (k, n); auto).
    destruct (String.eqb_spec c n) as [->|]; [contradiction|]. destruct (String.eqb_spec c k) as [->|]; [contradiction|reflexivity]. }
  rewrite E. destruct (String.eqb c k); [reflexivity|exact IH].
Qed.

(** *** Simplified constraints *)

Definition lowers (l : list (string * nat)) (d : dict nat) : dict nat := fold_left (fun d p => lower (fst p) (snd p) d) l d.
Lemma lower_keys g m d : In g (dkeys d) -> dkeys (lower g m d) = dkeys d.
Proof.
  intros I. unfold lower. destruct (dget g d) as [o|] eqn:D; [|apply dget_None in D; contradiction].
  destruct (m <? o); [|reflexivity]. clear D. induction d as [|[k v] d IH]; [destruct I|]. cbn [dset]. destruct (String.eqb_spec g k) as [->|N]; [reflexivity|].
  cbn [dkeys map fst]. f_equal. apply IH. destruct I as [E|I]; [cbn in E; congruence|exact I].
Qed.
(** Lowering, place by place. *)
Fixpoint low (g : string) (m : nat) (d : dict nat) : dict nat :=
  match d with
  | [] => [(g, m)]
  | (k, v) :: d' => if String.eqb g k then (k, Nat.min v m) :: d' else (k, v) :: low g m d'
  end.
Lemma lower_low g m d : lower g m d = low g m d.
Proof.
  unfold lower. induction d as [|[k v] d IH]; [reflexivity|]. cbn [dget low dset].
  destruct (String.eqb_spec g k) as [->|N].
  - destruct (Nat.ltb_spec m v); f_equal; f_equal; lia.
  - rewrite <- IH. destruct (dget g d) as [o|]; [destruct (m <? o)|]; reflexivity.
Qed.
Lemma low_keys g m d : In g (dkeys d) -> dkeys (low g m d) = dkeys d.
Proof. rewrite <- lower_low. apply lower_keys. Qed.
Lemma in_low g m d k : In k (dkeys d) -> In k (dkeys (low g m d)).
Proof.
  induction d as [|[x v] d IH]; [intros []|]. intros [E|I]; cbn [low]; destruct (String.eqb_spec g x); cbn [dkeys map fst] in *; subst; auto.
  - now left.
  - now left.
  - right. exact I.
  - right. now apply IH.
Qed.
Lemma low_in g m d : In g (dkeys (low g m d)).
Proof. induction d as [|[x v] d IH]; [now left|]. cbn [low]. destruct (String.eqb_spec g x) as [->|]; [now left|right; exact IH]. Qed.
Lemma low_swap g m h k d : In g (dkeys d) -> low h k (low g m d) = low g m (low h k d).
Proof.
  induction d as [|[x v] d IH]; [intros []|]. intros I. cbn [low].
  destruct (String.eqb_spec g x) as [->|N], (String.eqb_spec h x) as [->|N']; cbn [low]; rewrite ?String.eqb_refl.
  - f_equal. f_equal. lia.
  - destruct (String.eqb_spec h x); [contradiction|]. reflexivity.
  - destruct (String.eqb_spec g x); [contradiction|]. reflexivity.
  - destruct (String.eqb_spec g x), (String.eqb_spec h x); try contradiction. f_equal. apply IH. destruct I as [E|I]; [cbn in E; congruence|exact I].
Qed.
Definition lows (l : list (string * nat)) (d : dict nat) : dict nat := fold_left (fun d p => low (fst p) (snd p) d) l d.
Lemma lows_swap l : forall g m d, In g (dkeys d) -> lows l (low g m d) = low g m (lows l d).
Proof.
  induction l as [|[h k] l IH]; intros g m d I; [reflexivity|]. cbn [lows fold_left fst snd].
  rewrite low_swap by exact I. apply IH. now apply in_low.
Qed.
Lemma lows_in l : forall g d, In g (dkeys d) -> In g (dkeys (lows l d)).
Proof. induction l as [|[h k] l IH]; intros g d I; [exact I|]. cbn [lows fold_left]. apply IH. now apply in_low. Qed.
Lemma low_low g m m' d : low g m' (low g m d) = low g (Nat.min m m') d.
Proof.
  induction d as [|[x v] d IH]; cbn [low]; [rewrite String.eqb_refl; reflexivity|].
  destruct (String.eqb_spec g x) as [->|N]; cbn [low]; [rewrite String.eqb_refl; f_equal; f_equal; lia|].
  destruct (String.eqb_spec g x); [contradiction|]. now rewrite IH.
Qed.

(** Subjects renamed or left out. *)
Section Subjects.
Variable sub : string -> option string.
Definition subject (p : string * nat) : list (string * nat) := match sub (fst p) with Some g => [(g, snd p)] | None => [] end.
Lemma lows_app l l' d : lows (l ++ l') d = lows l' (lows l d).
Proof. apply fold_left_app. Qed.
Lemma subjects_low g m d : forall D, lows (flat_map subject (low g m d)) D = lows (flat_map subject (d ++ [(g, m)])) D.
Proof.
  induction d as [|[x v] d IH]; intros D; [reflexivity|]. cbn [low]. destruct (String.eqb_spec g x) as [->|N].
  - cbn [app flat_map]. rewrite flat_map_app, !lows_app. cbn [flat_map]. rewrite app_nil_r.
    assert (E : forall k, subject (x, k) = match sub x with Some g => [(g, k)] | None => [] end) by reflexivity.
    rewrite !E. destruct (sub x) as [y|]; [|reflexivity].
    assert (L : forall k d, lows [(y, k)] d = low y k d) by reflexivity. rewrite !L.
    rewrite <- low_low. now rewrite lows_swap by apply low_in.
  - cbn [app flat_map]. rewrite !lows_app. apply IH.
Qed.
Lemma subjects_lows l : forall d D, lows (flat_map subject (lows l d)) D = lows (flat_map subject (d ++ l)) D.
Proof.
  induction l as [|[g m] l IH]; intros d D; [now rewrite app_nil_r|]. cbn [lows fold_left fst snd]. fold (lows l (low g m d)). rewrite IH.
  rewrite flat_map_app, lows_app, subjects_low, <- lows_app, <- flat_map_app, <- app_assoc. reflexivity.
Qed.
End Subjects.

Definition rows_bounds (cs : list constraint) : list nat := flat_map (fun c => match c with MaxRowsPerID m => [m] | _ => [] end) cs.
Definition group_bounds (cs : list constraint) : list (string * nat) := flat_map (fun c => match c with MaxGroupsPerID g m => [(g, m)] | _ => [] end) cs.
Definition rpg_bounds (cs : list constraint) : list (string * nat) := flat_map (fun c => match c with MaxRowsPerGroupPerID g m => [(g, m)] | _ => [] end) cs.
Definition least (l : list nat) : list nat := match l with [] => [] | m :: l => [list_min m l] end.
Lemma simp_fold cs : forall s, fold_left simp_step cs s =
  {| s_rows := (s_rows s ++ rows_bounds cs)%list; s_groups := lows (group_bounds cs) (s_groups s); s_rpg := lows (rpg_bounds cs) (s_rpg s) |}.
Proof.
  induction cs as [|c cs IH]; intros s; cbn [fold_left].
  - cbn. rewrite app_nil_r. destruct s; reflexivity.
  - rewrite IH. destruct c; cbn [simp_step s_rows s_groups s_rpg]; rewrite ?lower_low; cbn; rewrite <- ?app_assoc; reflexivity.
Qed.
Lemma simplify_parts cs : simplify cs = (map MaxRowsPerID (least (rows_bounds cs))
  ++ map (fun p => MaxGroupsPerID (fst p) (snd p)) (lows (group_bounds cs) [])
  ++ map (fun p => MaxRowsPerGroupPerID (fst p) (snd p)) (lows (rpg_bounds cs) []))%list.
Proof. unfold simplify. rewrite simp_fold. cbn [s_rows s_groups s_rpg app]. destruct (rows_bounds cs); reflexivity. Qed.
Lemma bounds_of_parts rs gs ps : let cs := (map MaxRowsPerID rs ++ map (fun p => MaxGroupsPerID (fst p) (snd p)) gs ++ map (fun p => MaxRowsPerGroupPerID (fst p) (snd p)) ps)%list in
  rows_bounds cs = rs /\ group_bounds cs = gs /\ rpg_bounds cs = ps.
Proof.
  cbv zeta. unfold rows_bounds, group_bounds, rpg_bounds. rewrite !flat_map_app.
  assert (A : forall {A B C} (f : A -> B) (h : B -> list C) l, flat_map h (map f l) = flat_map (fun x => h (f x)) l).
  { intros A B C f h l. induction l as [|x l IH]; [reflexivity|]. cbn. now rewrite IH. }
  rewrite !A. cbn beta iota.
  assert (Z : forall {A B} (l : list A), flat_map (fun _ => @nil B) l = []) by (intros A0 B l; induction l; auto).
  assert (N : forall l : list nat, flat_map (fun x => [x]) l = l) by (induction l as [|x l IH]; [reflexivity|cbn; now rewrite IH]).
  assert (P : forall l : list (string * nat), flat_map (fun x => [(fst x, snd x)]) l = l) by (induction l as [|[x y] l IH]; [reflexivity|cbn; now rewrite IH]).
  rewrite !Z, N, !P, !app_nil_r. repeat split.
Qed.
Lemma list_min_app l : forall m l', list_min m (l ++ l') = list_min (list_min m l) l'.
Proof. intros. unfold list_min. apply fold_left_app. Qed.
Lemma least_least l l' : least (least l ++ l') = least (l ++ l').
Proof. destruct l as [|m l]; [reflexivity|]. cbn [least app]. now rewrite list_min_app. Qed.

(** Simplifying first changes nothing. *)
Definition by_subject (sub : string -> option string) (c : constraint) : list constraint :=
  match c with
  | MaxRowsPerID m => [c]
  | MaxGroupsPerID g m => match sub g with Some h => [MaxGroupsPerID h m] | None => [] end
  | MaxRowsPerGroupPerID g m => match sub g with Some h => [MaxRowsPerGroupPerID h m] | None => [] end
  end.
Lemma bounds_by_subject sub cs : rows_bounds (flat_map (by_subject sub) cs) = rows_bounds cs
  /\ group_bounds (flat_map (by_subject sub) cs) = flat_map (subject sub) (group_bounds cs)
  /\ rpg_bounds (flat_map (by_subject sub) cs) = flat_map (subject sub) (rpg_bounds cs).
Proof.
  unfold rows_bounds, group_bounds, rpg_bounds.
  induction cs as [|c cs (A & B & C)]; [repeat split|]. cbn [flat_map]. rewrite !flat_map_app, A, B, C.
  destruct c as [m|g m|g m]; cbn [by_subject flat_map app subject fst snd]; try (repeat split; reflexivity);
    unfold subject; cbn [fst snd]; destruct (sub g); cbn [flat_map app]; repeat split; reflexivity.
Qed.
Lemma bounds_app cs ds : rows_bounds (cs ++ ds) = (rows_bounds cs ++ rows_bounds ds)%list /\ group_bounds (cs ++ ds) = (group_bounds cs ++ group_bounds ds)%list
  /\ rpg_bounds (cs ++ ds) = (rpg_bounds cs ++ rpg_bounds ds)%list.
Proof. unfold rows_bounds, group_bounds, rpg_bounds. rewrite !flat_map_app. repeat split. Qed.
Lemma simplify_first sub cs ds : simplify (flat_map (by_subject sub) (simplify cs) ++ ds)%list = simplify (flat_map (by_subject sub) cs ++ ds)%list.
Proof.
  destruct (bounds_app (flat_map (by_subject sub) (simplify cs)) ds) as (A1 & A2 & A3).
  destruct (bounds_app (flat_map (by_subject sub) cs) ds) as (B1 & B2 & B3).
  destruct (bounds_by_subject sub (simplify cs)) as (C1 & C2 & C3). destruct (bounds_by_subject sub cs) as (D1 & D2 & D3).
  rewrite (simplify_parts (flat_map (by_subject sub) (simplify cs) ++ ds)), (simplify_parts (flat_map (by_subject sub) cs ++ ds)).
  rewrite A1, A2, A3, B1, B2, B3, C1, C2, C3, D1, D2, D3.
  pose proof (bounds_of_parts (least (rows_bounds cs)) (lows (group_bounds cs) []) (lows (rpg_bounds cs) [])) as P. cbv zeta in P.
  rewrite <- simplify_parts in P. destruct P as (P1 & P2 & P3). rewrite P1, P2, P3.
  rewrite least_least, !lows_app, !subjects_lows. reflexivity.
Qed.
Lemma select_by_subject l cs : propagate_select l cs = flat_map (by_subject (fun g => if smem g l then Some g else None)) cs.
Proof.
  unfold propagate_select. induction cs as [|c cs IH]; [reflexivity|]. cbn [filter flat_map]. rewrite IH.
  destruct c as [m|g m|g m]; cbn [by_subject app]; [reflexivity| |]; destruct (smem g l); reflexivity.
Qed.
Lemma rename_by_subject m cs : propagate_rename m cs = flat_map (by_subject (fun g => Some (renamed m g))) cs.
Proof. unfold propagate_rename. induction cs as [|c cs IH]; [reflexivity|]. cbn [map flat_map]. rewrite IH. destruct c; reflexivity. Qed.
Lemma all_subjects cs : flat_map (by_subject Some) cs = cs.
Proof. induction cs as [|c cs IH]; [reflexivity|]. cbn [flat_map]. rewrite IH. destruct c; reflexivity. Qed.
Lemma simplify_select_first l cs : simplify (propagate_select l (simplify cs)) = simplify (propagate_select l cs).
Proof. rewrite !select_by_subject. pose proof (simplify_first (fun g => if smem g l then Some g else None) cs []) as H. now rewrite !app_nil_r in H. Qed.
Lemma simplify_rename_first m cs : simplify (propagate_rename m (simplify cs)) = simplify (propagate_rename m cs).
Proof. rewrite !rename_by_subject. pose proof (simplify_first (fun g => Some (renamed m g)) cs []) as H. now rewrite !app_nil_r in H. Qed.
Lemma simplify_more cs ds : simplify (simplify cs ++ ds)%list = simplify (cs ++ ds)%list.
Proof. pose proof (simplify_first Some cs ds) as H. now rewrite !all_subjects in H. Qed.
Lemma simplify_two_bounds cs k m m' : simplify (simplify (cs ++ [bounded k m]) ++ [bounded k m'])%list = simplify (cs ++ [bounded k (Nat.min m m')])%list.
Proof.
  rewrite simplify_more, <- app_assoc, !simplify_parts.
  destruct (bounds_app cs ([bounded k m] ++ [bounded k m'])) as (A1 & A2 & A3). destruct (bounds_app cs [bounded k (Nat.min m m')]) as (B1 & B2 & B3).
  rewrite A1, A2, A3, B1, B2, B3, !lows_app. destruct k as [n|g n|g n]; cbn [bounded app rows_bounds group_bounds rpg_bounds flat_map lows fold_left fst snd]; rewrite ?low_low; try reflexivity.
  f_equal. f_equal. destruct (rows_bounds cs) as [|x l]; cbn [least app]; [reflexivity|]. rewrite !list_min_app. unfold list_min. cbn [fold_left]. f_equal. lia.
Qed.

(** *** One by one *)

Section Laws.
Variables (W : world) (l2 : bool) (cat : catalog) (data : dict vtab).
Notation alike := (alike W l2 cat data).
Notation computed := (computed W l2 cat data).
Notation sch := (schema_of (w_cond_ok W) cat).
Notation vis := (visit W l2 cat data).

Lemma filter_schema_is a s s' : filter_schema (w_cond_ok W) a s = Ok s' -> s' = s /\ w_cond_ok W a (analytics_to_spark_schema s) = true.
Proof. unfold filter_schema. intros H. apply bind_ok in H as ([] & R & H). apply raise_if_ok in R. apply negb_false_iff in R. split; [congruence|exact R]. Qed.

(** The parts of a computed query. *)
Lemma computed_alike q q' s t cs t' cs' : sch q = Ok s -> sch q' = Ok s -> vis q = Ok (t, cs) -> vis q' = Ok (t', cs') -> tab_like t t' -> cs = cs' -> alike q q'.
Proof. intros A B C D E F. split; [congruence|]. rewrite C, D. now split. Qed.
Lemma equal_alike q q' : sch q = sch q' -> vis q = vis q' -> alike q q'.
Proof. intros A B. split; [exact A|]. rewrite B. apply outcome_refl. Qed.

Ltac parts H s t cs SC VC := destruct H as (s & [t cs] & SC & VC); cbn [schema_of visit] in SC, VC.

Lemma filters_alike c a b : computed (Filter (Filter c a) b) -> computed (Filter (Filter c b) a) -> alike (Filter (Filter c a) b) (Filter (Filter c b) a).
Proof.
  intros (s & x & S & V) (s' & x' & S' & V'). apply equal_alike.
  - rewrite S, S'. cbn [schema_of] in S, S'. apply bind_ok in S as (s1 & S1 & S). apply bind_ok in S1 as (s0 & S0 & S1). apply bind_ok in S' as (s1' & S1' & S'). apply bind_ok in S1' as (s0' & S0' & S1').
    apply filter_schema_is in S, S1, S', S1'. f_equal. destruct S, S1, S', S1'. congruence.
  - cbn [visit] in *. destruct (vis c) as [[t cs]|e]; [|reflexivity]. cbn. now rewrite filter_swap.
Qed.
Lemma filter_twice_alike c a : computed (Filter (Filter c a) a) -> computed (Filter c a) -> alike (Filter (Filter c a) a) (Filter c a).
Proof.
  intros (s & x & S & V) (s' & x' & S' & V'). apply equal_alike.
  - rewrite S, S'. cbn [schema_of] in S, S'. apply bind_ok in S as (s1 & S1 & S). rewrite S' in S1. injection S1 as <-. apply filter_schema_is in S. f_equal. apply S.
  - cbn [visit] in *. destruct (vis c) as [[t cs]|e]; [|reflexivity]. cbn. now rewrite filter_twice, simplify_idem.
Qed.
Lemma filter_op_schema op f c a : (forall c, sch (op c) = let* s := sch c in f s) ->
  computed (Filter (op c) a) -> computed (op (Filter c a)) -> sch (Filter (op c) a) = sch (op (Filter c a)).
Proof.
  intros F (s & x & S & _) (s' & x' & S' & _). rewrite S, S'. rewrite F in S'. cbn [schema_of] in S, S'. rewrite F in S.
  apply bind_ok in S as (s1 & S1 & S). apply bind_ok in S1 as (s0 & S0 & S1). apply bind_ok in S' as (s1' & S1' & S'). apply bind_ok in S1' as (s0' & S0' & S1').
  apply filter_schema_is in S as (-> & _), S1' as (-> & _). congruence.
Qed.
Lemma filter_select_alike c cols a ks : reads W a ks -> incl ks cols ->
  computed (Filter (Select c cols) a) -> computed (Select (Filter c a) cols) -> alike (Filter (Select c cols) a) (Select (Filter c a) cols).
Proof.
  intros R I C C'. apply equal_alike; [now apply (filter_op_schema (fun c => Select c cols) (select_schema cols) c a)|].
  cbn [visit]. destruct (vis c) as [[t cs]|e]; [|reflexivity]. cbn [bind visit_select visit_filter v_dom v_place v_rows v_coll].
  destruct (mapM _ cols) as [d|e]; [|reflexivity]. cbn [bind]. destruct (raise_if _ _) as [u|e]; [|reflexivity]. cbn [bind visit_filter v_dom v_place v_rows v_coll].
  rewrite simplify_idem, simplify_select_first. do 3 f_equal. apply filter_map_comm. intros r. apply R. intros k K. now apply getv_select, I.
Qed.
Lemma filter_rename_alike c m a ks : reads W a ks -> (forall k, In k ks -> ~ In k (dkeys m) /\ ~ In k (map snd m)) ->
  computed (Filter (Rename c m) a) -> computed (Rename (Filter c a) m) -> alike (Filter (Rename c m) a) (Rename (Filter c a) m).
Proof.
  intros R I C C'. apply equal_alike; [now apply (filter_op_schema (fun c => Rename c m) (rename_schema m) c a)|].
  cbn [visit]. destruct (vis c) as [[t cs]|e]; [|reflexivity]. cbn [bind visit_rename visit_filter v_dom v_place v_rows v_coll].
  destruct (raise_if _ _) as [u|e]; [|reflexivity]. cbn [bind visit_filter v_dom v_place v_rows v_coll].
  rewrite simplify_idem, simplify_rename_first. do 3 f_equal. apply filter_map_comm. intros r. apply R. intros k K. apply I in K as (K1 & K2). now apply getv_rename.
Qed.
Lemma filter_map_alike c f n a ks : NoDup (dkeys (sc_cols n)) -> reads W a ks -> (forall k, In k ks -> ~ In k (dkeys (sc_cols n))) ->
  computed (Filter (MapQ c f n true) a) -> computed (MapQ (Filter c a) f n true) -> alike (Filter (MapQ c f n true) a) (MapQ (Filter c a) f n true).
Proof.
  intros N R I C C'. apply equal_alike; [now apply (filter_op_schema (fun c => MapQ c f n true) (map_schema n true) c a)|].
  cbn [visit]. destruct (vis c) as [[t cs]|e]; [|reflexivity]. cbn [bind visit_map visit_filter v_dom v_place v_rows v_coll].
  destruct (raise_if _ _) as [u|e]; [|reflexivity]. cbn [bind visit_filter v_dom v_place v_rows v_coll propagate_map negb andb raise_if].
  rewrite !simplify_idem. do 3 f_equal. apply filter_map_comm. intros r. apply R. intros k K. unfold map_row.
  rewrite getv_merge by (unfold new_cells; now rewrite dkeys_select).
  destruct (dmem k _) eqn:D; [|reflexivity]. apply dmem_In in D. unfold new_cells in D. rewrite dkeys_select in D. destruct (I k K D).
Qed.
Lemma filter_drop_null_alike c l a : computed (Filter (DropNullAndNan c l) a) -> computed (DropNullAndNan (Filter c a) l) ->
  alike (Filter (DropNullAndNan c l) a) (DropNullAndNan (Filter c a) l).
Proof.
  intros C C'. apply equal_alike; [now apply (filter_op_schema (fun c => DropNullAndNan c l) (drop_null_schema l) c a)|].
  cbn [visit]. destruct (vis c) as [[t cs]|e]; [|reflexivity]. cbn [bind visit_filter].
  unfold visit_drop_null. cbn [v_dom v_place v_rows v_coll].
  destruct (core_to_analytics _) as [an|e]; [|reflexivity]. cbn [bind]. destruct (mk_schema _ _ _ _) as [u|e]; [|reflexivity]. cbn [bind].
  destruct (raise_if _ _) as [u'|e]; [|reflexivity]. cbn [bind]. destruct (raise_if _ _) as [u''|e]; [|reflexivity]. cbn [bind visit_filter v_dom v_place v_rows v_coll].
  rewrite !simplify_idem. do 3 f_equal. unfold drop_rows. rewrite (filter_swap (w_cond_holds W a)). f_equal. apply filter_swap.
Qed.
Lemma filter_drop_inf_alike c l a : computed (Filter (DropInfinity c l) a) -> computed (DropInfinity (Filter c a) l) ->
  alike (Filter (DropInfinity c l) a) (DropInfinity (Filter c a) l).
Proof.
  intros C C'. apply equal_alike; [now apply (filter_op_schema (fun c => DropInfinity c l) (drop_inf_schema l) c a)|].
  cbn [visit]. destruct (vis c) as [[t cs]|e]; [|reflexivity]. cbn [bind visit_filter].
  unfold visit_drop_inf. cbn [v_dom v_place v_rows v_coll].
  destruct (core_to_analytics _) as [an|e]; [|reflexivity]. cbn [bind]. destruct (mk_schema _ _ _ _) as [u|e]; [|reflexivity]. cbn [bind].
  match goal with |- context[bind (match l with [] => _ | _ => _ end) _] => destruct (match l with [] => _ | _ => _ end) as [cols|e]; [|reflexivity] end.
  cbn [bind visit_filter v_dom v_place v_rows v_coll].
  rewrite !simplify_idem. do 3 f_equal. unfold drop_rows. apply filter_swap.
Qed.

Lemma mapM_ext {A B} (f g : A -> res B) l : (forall x, In x l -> f x = g x) -> mapM f l = mapM g l.
Proof.
  induction l as [|x l IH]; intros H; [reflexivity|]. cbn [mapM]. rewrite (H x (or_introl eq_refl)). rewrite IH; [reflexivity|]. intros y I. apply H. now right.
Qed.
Lemma mapM_each {A B} (f : A -> res B) l ys x : mapM f l = Ok ys -> In x l -> exists y, f x = Ok y.
Proof.
  revert ys. induction l as [|z l IH]; intros ys H I; [destruct I|]. cbn [mapM] in H.
  apply bind_ok in H as (y & Y & H). apply bind_ok in H as (r & M & H). destruct I as [E|I]; [subst; eauto|eauto].
Qed.
(** Looking up in a selection. *)
Lemma select_dget {V} (d : dict V) l x c : mapM (fun c => match dget c d with Some k => Ok (c, k) | None => Err ValueError end) l = Ok x ->
  dget c (dict_of x) = if smem c l then dget c d else None.
Proof.
  intros H. rewrite (mapM_ext _ (fun c => let* k := match dget c d with Some k => Ok k | None => Err ValueError end in Ok (c, k))) in H by (intros k _; now destruct (dget k d)).
  apply mapM_keyed in H as (K & E).
  rewrite (AnswerSchema.dict_of_functional (fun c => dget c d)).
  - change (map fst x) with (dkeys x). now rewrite K.
  - intros n v I. specialize (E n v I). destruct (dget n d); [congruence|discriminate].
Qed.
Lemma selects_alike c l l' : computed (Select (Select c l) l') -> computed (Select c l') -> alike (Select (Select c l) l') (Select c l').
Proof.
  intros (s & x & S & V) (s' & x' & S' & V').
  cbn [visit] in V, V'. apply bind_ok in V as ([t1 cs1] & V1 & V). apply bind_ok in V1 as ([t cs] & V0 & V1). rewrite V0 in V'. cbn [bind] in V'.
  cbn [visit_select] in V, V1, V'.
  apply bind_ok in V1 as (d1 & M1 & V1). apply bind_ok in V1 as ([] & R1 & V1). injection V1 as <- <-.
  apply bind_ok in V as (d2 & M2 & V). apply bind_ok in V as ([] & R2 & V). injection V as <-.
  apply bind_ok in V' as (d3 & M3 & V'). apply bind_ok in V' as ([] & R3 & V'). injection V' as <-.
  cbn [v_dom v_place v_rows v_coll] in *.
  assert (I : incl l' l).
  { intros k K. apply (mapM_each _ _ _ k M2) in K as (y & Y). rewrite (select_dget _ _ _ k M1) in Y.
    destruct (smem k l) eqn:SM; [now apply smem_In|discriminate]. }
  assert (D : d2 = d3).
  { rewrite (mapM_ext _ (fun c => match dget c (v_dom t) with Some k => Ok (c, k) | None => Err ValueError end)) in M2; [congruence|].
    intros k K. rewrite (select_dget _ _ _ k M1). apply I in K. now apply smem_In in K as ->. }
  split.
  - rewrite S, S'. cbn [schema_of] in S, S'. apply bind_ok in S as (s1 & S1 & S). apply bind_ok in S1 as (s0 & S0 & S1).
    rewrite S0 in S'. cbn [bind] in S'. unfold select_schema in S, S1, S'.
    apply bind_ok in S1 as (u1 & _ & S1). apply bind_ok in S1 as (u2 & _ & S1). apply bind_ok in S1 as (u3 & _ & S1). apply bind_ok in S1 as (p1 & P1 & S1).
    apply bind_ok in S as (u4 & _ & S). apply bind_ok in S as (u5 & _ & S). apply bind_ok in S as (u6 & _ & S). apply bind_ok in S as (p2 & P2 & S).
    apply bind_ok in S' as (u7 & _ & S'). apply bind_ok in S' as (u8 & _ & S'). apply bind_ok in S' as (u9 & _ & S'). apply bind_ok in S' as (p3 & P3 & S').
    apply mk_schema_ok in S1 as (_ & _ & _ & ->). apply mk_schema_ok in S as (_ & _ & _ & ->). apply mk_schema_ok in S' as (_ & _ & _ & ->). cbn [sc_cols sc_group sc_id sc_space] in *.
    apply AnswerSchema.pick_spec in P1 as (P1 & _). f_equal. f_equal.
    unfold pick in P2, P3. rewrite (mapM_ext _ (fun c => let* x := lookup_col (sc_cols s0) c in Ok (c, x))) in P2; [congruence|].
    intros k K. unfold lookup_col. rewrite P1. apply I in K. now apply smem_In in K as ->.
  - cbn [visit]. rewrite V0. cbn [bind visit_select]. rewrite M1. cbn [bind]. rewrite R1. cbn [bind visit_select v_dom v_place v_rows v_coll].
    rewrite M2. cbn [bind]. rewrite R2. cbn [bind]. rewrite M3. cbn [bind outcome_like].
    subst d3. split.
    + unfold tab_like. cbn [v_dom v_place v_rows v_coll]. repeat split. rewrite map_map.
      erewrite map_ext; [reflexivity|]. intros r. unfold select_row at 1 3. apply map_ext_in. intros k K. f_equal. now apply getv_select, I.
    + rewrite simplify_select_first. f_equal. unfold propagate_select. clear -I. induction cs as [|k cs IH]; [reflexivity|]. cbn [filter].
      destruct k as [m|g m|g m]; cbn [filter]; [now rewrite IH| |]; destruct (smem g l) eqn:A; cbn [filter]; rewrite IH; try reflexivity;
        (destruct (smem g l') eqn:B; [apply smem_In, I, smem_In in B; congruence|reflexivity]).
Qed.

Lemma in_dset {V} k k' (v : V) d : In k (dkeys (dset k' v d)) <-> k = k' \/ In k (dkeys d).
Proof.
  rewrite dkeys_dset. destruct (smem k' (dkeys d)) eqn:M; [|rewrite in_app_iff; cbn [In]; intuition].
  apply smem_In in M. split; [auto|intros [->|I]; auto].
Qed.
Lemma fold_dset_app {V} (d : dict V) a b : merge (merge d a) b = merge d (a ++ b)%list.
Proof. unfold merge. symmetry. apply fold_left_app. Qed.
Lemma maps_alike c f n g n' : computed (MapQ (MapQ c f n true) g n' true) -> computed (MapQ c (one_function f g n n') (both_new n n') true) ->
  alike (MapQ (MapQ c f n true) g n' true) (MapQ c (one_function f g n n') (both_new n n') true).
Proof.
  intros (s & x & S & V) (s' & x' & S' & V').
  assert (D : forall k, In k (dkeys (sc_cols n')) -> ~ In k (dkeys (sc_cols n))).
  { cbn [schema_of] in S. apply bind_ok in S as (s1 & S1 & S). apply bind_ok in S1 as (s0 & S0 & S1). unfold map_schema in S, S1.
    apply bind_ok in S1 as ([] & _ & S1). apply mk_schema_ok in S1 as (_ & _ & _ & ->). apply bind_ok in S as ([] & R & S). apply raise_if_ok in R. cbn [sc_cols] in R.
    intros k K' K. assert (I : In k (dkeys (merge (sc_cols s0) (new_columns n)))).
    { unfold merge. clear -K. revert K. unfold new_columns. generalize (sc_cols s0). induction (sc_cols n) as [|[y d] l IH]; intros e K; [destruct K|].
      cbn [map fold_left fst snd]. destruct K as [K|K]; [|now apply IH]. cbn [fst] in K. subst y.
      clear IH. cbn. assert (Z : forall l' (e' : dict coldesc), In k (dkeys e') -> In k (dkeys (fold_left (fun d p => dset (fst p) (snd p) d) l' e'))).
      { induction l' as [|[z w] l' IH']; intros e' I'; [exact I'|]. cbn [fold_left fst snd]. apply IH'. apply in_dset. now right. }
      apply Z. apply in_dset. now left. }
    apply dmem_In in K'. assert (existsb (fun c0 => dmem c0 (sc_cols n')) (dkeys (merge (sc_cols s0) (new_columns n))) = true) by (apply existsb_exists; eauto). congruence. }
  apply equal_alike.
  - rewrite S, S'. cbn [schema_of] in S, S'. apply bind_ok in S as (s1 & S1 & S). apply bind_ok in S1 as (s0 & S0 & S1). rewrite S0 in S'. cbn [bind] in S'. unfold map_schema in S, S1, S'.
    apply bind_ok in S1 as ([] & _ & S1). apply mk_schema_ok in S1 as (_ & _ & _ & ->). apply bind_ok in S as ([] & _ & S). apply mk_schema_ok in S as (_ & _ & _ & ->).
    apply bind_ok in S' as ([] & _ & S'). apply mk_schema_ok in S' as (_ & _ & _ & ->). cbn [sc_cols sc_group sc_id sc_space].
    f_equal. f_equal. rewrite fold_dset_app. unfold new_columns, both_new. cbn [sc_cols]. now rewrite map_app.
  - cbn [visit]. destruct (vis c) as [[t cs]|e]; [|reflexivity]. cbn [bind visit_map propagate_map negb andb raise_if]. rewrite andb_false_r. cbn [raise_if bind visit_map v_place v_dom v_rows v_coll propagate_map negb andb].
    rewrite andb_false_r. cbn [raise_if bind]. rewrite simplify_idem. do 3 f_equal.
    + unfold mapped_domain. rewrite fold_dset_app. unfold new_core, both_new. cbn [sc_cols]. now rewrite map_app.
    + rewrite map_map. apply map_ext. intros r. unfold map_row. rewrite fold_dset_app. f_equal. unfold new_cells, both_new, select_row. cbn [sc_cols].
      unfold dkeys at 4. rewrite map_app, map_app. fold (dkeys (sc_cols n)) (dkeys (sc_cols n')). unfold one_function.
      set (A := map (fun c0 => (c0, getv c0 (f r))) (dkeys (sc_cols n))).
      set (B := map (fun c0 => (c0, getv c0 (g (merge r A)))) (dkeys (sc_cols n'))).
      assert (GA : forall k, In k (dkeys (sc_cols n)) -> getv k (A ++ B)%list = getv k (f r)).
      { intros k K. unfold getv at 1. rewrite SchemaProofs.dget_app. unfold A. rewrite (dget_keyed (fun c => getv c (f r)) _ k K). reflexivity. }
      assert (GB : forall k, In k (dkeys (sc_cols n')) -> getv k (A ++ B)%list = getv k (g (merge r A))).
      { intros k K. unfold getv at 1. rewrite SchemaProofs.dget_app.
        assert (dget k A = None) as ->. { apply dget_None. unfold A. unfold dkeys at 1. rewrite map_map. cbn [fst]. rewrite map_id. now apply D. }
        unfold B. now rewrite (dget_keyed (fun c => getv c (g (merge r A))) _ k K). }
      f_equal; apply map_ext_in; intros k K; f_equal; symmetry; auto.
Qed.

Lemma keep_first_twice {K} (eqd : forall a b : K, {a = b} + {a <> b}) (key : rec -> K) m m' t : forall s1 s2,
  (forall k, count_occ eqd s2 k = Nat.min m (count_occ eqd s1 k)) ->
  keep_first eqd key m' s2 (keep_first eqd key m s1 t) = keep_first eqd key (Nat.min m m') s1 t.
Proof.
  induction t as [|r t IH]; intros s1 s2 H; [reflexivity|]. cbn [keep_first]. pose proof (H (key r)) as HR.
  destruct (Nat.ltb_spec (count_occ eqd s1 (key r)) m) as [L|L].
  - cbn [keep_first]. rewrite HR. rewrite (IH (key r :: s1) (key r :: s2)).
    + destruct (Nat.ltb_spec (Nat.min m (count_occ eqd s1 (key r))) m'), (Nat.ltb_spec (count_occ eqd s1 (key r)) (Nat.min m m')); try reflexivity; lia.
    + intros k. cbn [count_occ]. rewrite H. destruct (eqd (key r) k) as [E|E]; [subst k; lia|reflexivity].
  - destruct (Nat.ltb_spec (count_occ eqd s1 (key r)) (Nat.min m m')); [lia|]. apply IH.
    intros k. cbn [count_occ]. rewrite H. destruct (eqd (key r) k) as [E|E]; [subst k; lia|reflexivity].
Qed.
Lemma sorted_keep {K} (eqd : forall a b : K, {a = b} + {a <> b}) (key : rec -> K) m le t : forall s, sorted le t -> sorted le (keep_first eqd key m s t).
Proof.
  assert (I : forall t s, incl (keep_first eqd key m s t) t).
  { clear. induction t as [|r t IH]; intros s x X; [destruct X|]. cbn [keep_first] in X. destruct (_ <? _); [destruct X as [->|X]; [now left|]|]; right; exact (IH _ _ X). }
  induction t as [|r t IH]; intros s S; [exact S|]. cbn [keep_first]. inversion S; subst.
  destruct (_ <? _); [|now apply IH]. constructor; [|now apply IH]. intros y Y. match goal with Q : forall y, In y t -> _ |- _ => apply Q end. exact (I _ _ _ Y).
Qed.
Lemma isort_id (O : order rec) t : sorted (ole O) t -> isort (ole O) t = t.
Proof. intros S. apply (sorted_unique O); [apply isort_sorted|exact S|apply isort_perm]. Qed.
Lemma keep_limits (O : order rec) {K} (eqd : forall a b : K, {a = b} + {a <> b}) (key : rec -> K) m m' t :
  keep_first eqd key m' [] (isort (ole O) (keep_first eqd key m [] (isort (ole O) t))) = keep_first eqd key (Nat.min m m') [] (isort (ole O) t).
Proof.
  rewrite isort_id by (apply sorted_keep, isort_sorted). apply keep_first_twice. intros k. cbn. lia.
Qed.
Lemma kept_twice (KO : value -> order value) idc g m m' t i :
  kept_keys KO idc g m' (limit_keys KO idc g m t) i = kept_keys KO idc g (Nat.min m m') t i.
Proof.
  assert (P : Permutation (keys_of idc g (limit_keys KO idc g m t) i) (kept_keys KO idc g m t i)).
  { apply NoDup_Permutation; [apply keys_of_NoDup| |].
    - unfold kept_keys. apply (fun H => proj1 (AnswerSchema.NoDup_parts _ (skipn m (isort (ole (KO i)) (keys_of idc g t i))) H)). rewrite firstn_skipn.
      apply (Permutation_NoDup (Permutation_sym (isort_perm _ _))), keys_of_NoDup.
    - intros v. rewrite keys_of_In. unfold limit_keys. split.
      + intros (r & R & <-). unfold rows_of in R. apply filter_In in R as (R & HV). apply filter_In in R as (R & M). apply has_value_true in HV. rewrite HV in M. now apply vmem_In in M.
      + intros IV. pose proof (kept_incl KO idc g m t i v IV) as IK. apply keys_of_In in IK as (r & R & E). exists r. split; [|exact E].
        unfold rows_of in *. apply filter_In in R as (R & HV). apply filter_In. split; [|exact HV]. apply filter_In. split; [exact R|]. apply has_value_true in HV. rewrite HV, E. now apply vmem_In. }
  unfold kept_keys at 1. rewrite (isort_same _ _ _ P). unfold kept_keys.
  assert (Z : isort (ole (KO i)) (firstn m (isort (ole (KO i)) (keys_of idc g t i))) = firstn m (isort (ole (KO i)) (keys_of idc g t i))).
  { apply (sorted_unique (KO i)); [apply isort_sorted| |apply isort_perm].
    generalize (isort_sorted (KO i) (keys_of idc g t i)). generalize (isort (ole (KO i)) (keys_of idc g t i)). clear. intros l S. revert m.
    induction S as [|x l F S IH]; intros [|m]; cbn [firstn]; try constructor; [|apply IH]. intros y Y. apply F. rewrite <- (firstn_skipn m l). apply in_or_app. now left. }
  rewrite Z, firstn_firstn. f_equal. lia.
Qed.
Lemma limit_keys_twice KO idc g m m' t : limit_keys KO idc g m' (limit_keys KO idc g m t) = limit_keys KO idc g (Nat.min m m') t.
Proof.
  unfold limit_keys at 1. 
  erewrite filter_ext; [|intros r; rewrite kept_twice; reflexivity]. unfold limit_keys.
  assert (F : forall p q : rec -> bool, (forall r, In r t -> p r = true -> q r = true) -> filter p (filter q t) = filter p t).
  { clear. intros p q H. induction t as [|r t IH]; [reflexivity|]. cbn [filter]. destruct (q r) eqn:Q; cbn [filter].
    - destruct (p r); rewrite IH; auto; intros; apply H; auto; now right.
    - destruct (p r) eqn:P; [rewrite (H r) in Q; [discriminate|now left|exact P]|]. apply IH. intros; apply H; auto; now right. }
  apply F. intros r _ M. apply vmem_In in M. apply vmem_In. unfold kept_keys in *.
  rewrite <- (firstn_skipn (Nat.min m m') (firstn m _)). rewrite firstn_firstn. apply in_or_app. left. now replace (Nat.min (Nat.min m m') m) with (Nat.min m m') by lia.
Qed.
Lemma enforce_alike c k m m' : computed (EnforceConstraint (EnforceConstraint c (bounded k m)) (bounded k m')) -> computed (EnforceConstraint c (bounded k (Nat.min m m'))) ->
  alike (EnforceConstraint (EnforceConstraint c (bounded k m)) (bounded k m')) (EnforceConstraint c (bounded k (Nat.min m m'))).
Proof.
  assert (SI : forall k s s', enforce_schema k s = Ok s' -> s' = s).
  { intros k0 s s' H. unfold enforce_schema in H. destruct (sc_id s); [|discriminate]. destruct k0; [congruence| |]; apply bind_ok in H as (u & _ & H); apply bind_ok in H as (u' & _ & H); congruence. }
  intros (s & x & S & V) (s' & x' & S' & V'). split.
  - rewrite S, S'. cbn [schema_of] in S, S'. apply bind_ok in S as (s1 & S1 & S). apply bind_ok in S1 as (s0 & S0 & S1). rewrite S0 in S'. cbn [bind] in S'. apply SI in S, S1, S'. congruence.
  - cbn [visit] in *. apply bind_ok in V as ([t1 cs1] & V1 & V). apply bind_ok in V1 as ([t cs] & V0 & V1). rewrite V0 in *. cbn [bind] in *.
    cbn [visit_enforce] in *. pose proof (simplify_two_bounds cs k m m') as SB. destruct k as [n|g n|g n]; cbn [bounded enforce t_place t_rows] in *; destruct (v_place t) as [i| |g' b i|g' b]; try discriminate;
      cbn [bind visit_enforce v_dom v_place v_rows v_coll t_place t_rows enforce outcome_like];
      (split; [|exact SB]);
      unfold tab_like; cbn [v_dom v_place v_rows v_coll]; repeat split.
    + unfold limit_rows. now rewrite keep_limits.
    + now rewrite limit_keys_twice.
    + unfold limit_rows_per_key. now rewrite keep_limits.
Qed.

(** Dropping rows, all at once. *)
Definition flag (f : coldesc -> bool) (d : dict coredesc) (c : string) : bool := match dget c d with Some k => f (view k) | None => false end.
Definition off (b b' b'' : bool) (k : coredesc) : coredesc :=
  let k1 := if b then core_not_null k else k in let k2 := if b' then core_not_nan k1 else k1 in if b'' then core_not_inf k2 else k2.
Definition null_columns (l : list string) (p : place) (d : dict coredesc) : list string :=
  match l with
  | [] => dkeys (filter (fun q => (cd_null (snd q) || cd_nan (snd q)) && negb (is_col (metric_column p) (fst q))) (map (fun q => (fst q, view (snd q))) d))
  | _ => l end.
Definition inf_columns (l : list string) (d : dict coredesc) : list string :=
  match l with
  | [] => dkeys (filter (fun q => is_decimal (snd q) && cd_inf (snd q)) (map (fun q => (fst q, view (snd q))) d))
  | _ => l end.
Lemma dget_by_key {V V'} (h : string -> V -> V') (d : dict V) c : dget c (map (fun p => (fst p, h (fst p) (snd p))) d) = option_map (h c) (dget c d).
Proof. induction d as [|[k v] d IH]; [reflexivity|]. cbn [map dget fst snd]. destruct (String.eqb_spec c k) as [->|]; [reflexivity|exact IH]. Qed.
Lemma smem_filter c (p : string -> bool) l : smem c (filter p l) = p c && smem c l.
Proof.
  induction l as [|x l IH]; [now rewrite andb_false_r|]. cbn [filter]. destruct (p x) eqn:P; cbn [smem existsb]; fold (smem c l); fold (smem c (filter p l)); rewrite ?IH.
  - destruct (String.eqb_spec c x) as [->|]; [now rewrite P|]. reflexivity.
  - destruct (String.eqb_spec c x) as [->|]; [now rewrite P|]. reflexivity.
Qed.
Lemma existsb_filter {A} (p q : A -> bool) l : existsb p (filter q l) = existsb (fun x => q x && p x) l.
Proof. induction l as [|x l IH]; [reflexivity|]. cbn [filter existsb]. destruct (q x); cbn [existsb andb orb]; now rewrite IH. Qed.
Lemma filter_filter {A} (p q : A -> bool) l : filter p (filter q l) = filter (fun x => q x && p x) l.
Proof. induction l as [|x l IH]; [reflexivity|]. cbn [filter]. destruct (q x); cbn [filter andb]; [destruct (p x)|]; now rewrite IH. Qed.
Lemma existsb_or {A} (p q : A -> bool) l : existsb (fun x => p x || q x) l = existsb p l || existsb q l.
Proof. induction l as [|x l IH]; [reflexivity|]. cbn [existsb]. rewrite IH. destruct (p x), (q x), (existsb p l); reflexivity. Qed.

Definition bad (d : dict coredesc) (c : string) (v : value) : bool := flag cd_null d c && is_null v || flag cd_nan d c && is_nan v.
Lemma drop_null_form l t cs y : visit_drop_null l (t, cs) = Ok y ->
  let cols := null_columns l (v_place t) (v_dom t) in
  y = ({| v_dom := map (fun p => (fst p, off (flag cd_null (v_dom t) (fst p) && smem (fst p) cols) (flag cd_nan (v_dom t) (fst p) && smem (fst p) cols) false (snd p))) (v_dom t);
          v_coll := v_coll t; v_place := v_place t;
          v_rows := filter (fun r => negb (existsb (fun c => bad (v_dom t) c (getv c r)) cols)) (v_rows t) |}, simplify cs).
Proof.
  unfold visit_drop_null. rewrite core_to_analytics_view. cbn [bind]. intros H.
  apply bind_ok in H as (u & _ & H). apply bind_ok in H as (u1 & _ & H). apply bind_ok in H as (u2 & _ & H). injection H as <-. cbv zeta.
  assert (FL : forall f c, match dget c (map (fun p => (fst p, view (snd p))) (v_dom t)) with Some d => f d | None => false end = flag f (v_dom t) c).
  { intros f c. rewrite (dget_by_key (fun _ k => view k)). unfold flag. destruct (dget c (v_dom t)); reflexivity. }
  fold (null_columns l (v_place t) (v_dom t)). set (cols := null_columns l (v_place t) (v_dom t)).
  rewrite !(filter_ext _ _ (FL cd_null)), !(filter_ext _ _ (FL cd_nan)). do 3 f_equal.
  - unfold at_columns. rewrite map_map. apply map_ext. intros [c k]. cbn [fst snd]. rewrite !smem_filter. unfold off. reflexivity.
  - unfold drop_rows. rewrite filter_filter. apply filter_ext. intros r. rewrite !existsb_filter. unfold bad. rewrite existsb_or. now rewrite negb_orb.
Qed.
Lemma drop_inf_form l t cs y : visit_drop_inf l (t, cs) = Ok y ->
  let cols := inf_columns l (v_dom t) in
  y = ({| v_dom := map (fun p => (fst p, off false false (smem (fst p) cols) (snd p))) (v_dom t);
          v_coll := v_coll t; v_place := v_place t;
          v_rows := filter (fun r => negb (existsb (fun c => is_inf (getv c r)) cols)) (v_rows t) |}, simplify cs).
Proof.
  unfold visit_drop_inf. rewrite core_to_analytics_view. cbn [bind]. intros H.
  apply bind_ok in H as (u & _ & H). apply bind_ok in H as (cols & C & H). injection H as <-. cbv zeta.
  assert (cols = inf_columns l (v_dom t)) as ->.
  { unfold inf_columns. destruct l; [congruence|]. apply bind_ok in C as (u1 & _ & C). congruence. }
  reflexivity.
Qed.
Lemma off_off b1 b2 b3 c1 c2 c3 k : off c1 c2 c3 (off b1 b2 b3 k) = off (b1 || c1) (b2 || c2) (b3 || c3) k.
Proof. destruct b1, b2, b3, c1, c2, c3, k; reflexivity. Qed.
Lemma smem_app c l l' : smem c (l ++ l') = smem c l || smem c l'.
Proof. apply existsb_app. Qed.
Lemma flag_off f (d : dict coredesc) (h1 h2 h3 : string -> bool) c : 
  flag f (map (fun p => (fst p, off (h1 (fst p)) (h2 (fst p)) (h3 (fst p)) (snd p))) d) c = flag (fun k => f (view (off (h1 c) (h2 c) (h3 c) (to_core k)))) d c.
Proof. unfold flag. rewrite (dget_by_key (fun c k => off (h1 c) (h2 c) (h3 c) k)). destruct (dget c d) as [k|]; [|reflexivity]. cbn [option_map]. now rewrite to_core_view. Qed.
Lemma flag_null_off d h1 h2 h3 c : flag cd_null (map (fun p => (fst p, off (h1 (fst p)) (h2 (fst p)) (h3 (fst p)) (snd p))) d) c = flag cd_null d c && negb (h1 c).
Proof. rewrite flag_off. unfold flag. destruct (dget c d) as [k|]; [|reflexivity]. rewrite to_core_view. destruct k, (h1 c), (h2 c), (h3 c); cbn; rewrite ?andb_true_r, ?andb_false_r; reflexivity. Qed.
Lemma flag_nan_off d h1 h2 h3 c : flag cd_nan (map (fun p => (fst p, off (h1 (fst p)) (h2 (fst p)) (h3 (fst p)) (snd p))) d) c = flag cd_nan d c && negb (h2 c).
Proof. rewrite flag_off. unfold flag. destruct (dget c d) as [k|]; [|reflexivity]. rewrite to_core_view. destruct k, (h1 c), (h2 c), (h3 c); cbn; rewrite ?andb_true_r, ?andb_false_r; reflexivity. Qed.

Lemma drop_null_schema_is l s s' : drop_null_schema l s = Ok s' ->
  let change := match l with [] => dkeys (filter (fun p => (cd_null (snd p) || cd_nan (snd p)) && not_special s (fst p)) (sc_cols s)) | _ => l end in
  s' = {| sc_cols := map (fun p => (fst p, {| cd_type := cd_type (snd p); cd_null := cd_null (snd p) && negb (smem (fst p) change);
                         cd_nan := cd_nan (snd p) && negb (smem (fst p) change); cd_inf := cd_inf (snd p) |})) (sc_cols s);
          sc_group := sc_group s; sc_id := sc_id s; sc_space := sc_space s |}.
Proof.
  unfold drop_null_schema. intros H. apply bind_ok in H as (u1 & _ & H). apply bind_ok in H as (u2 & _ & H). apply bind_ok in H as (u3 & _ & H).
  unfold rebuild in H. apply mk_schema_ok in H as (_ & _ & _ & ->). reflexivity.
Qed.
Lemma drop_inf_schema_is l s s' : drop_inf_schema l s = Ok s' ->
  s' = {| sc_cols := map (fun p => (fst p, {| cd_type := cd_type (snd p); cd_null := cd_null (snd p); cd_nan := cd_nan (snd p);
                         cd_inf := cd_inf (snd p) && negb (smem (fst p) (default_infinity s l)) |})) (sc_cols s);
          sc_group := sc_group s; sc_id := sc_id s; sc_space := sc_space s |}.
Proof.
  unfold drop_inf_schema. intros H. apply bind_ok in H as (u1 & _ & H). apply bind_ok in H as (u2 & _ & H). apply bind_ok in H as (u3 & _ & H).
  unfold no_infinity, rebuild in H. apply mk_schema_ok in H as (_ & _ & _ & ->). reflexivity.
Qed.

Lemma smem_same c l l' : incl l l' -> incl l' l -> smem c l = smem c l'.
Proof. intros A B. apply eq_true_iff_eq. rewrite !smem_In. split; auto. Qed.
Lemma existsb_same {A} (p : A -> bool) l l' : incl l l' -> incl l' l -> existsb p l = existsb p l'.
Proof. intros A1 B. apply eq_true_iff_eq. rewrite !existsb_exists. split; intros (x & X & Y); eauto. Qed.
Lemma drop_null_set_alike c l l' : l <> [] -> incl l l' -> incl l' l -> computed (DropNullAndNan c l) -> computed (DropNullAndNan c l') -> alike (DropNullAndNan c l) (DropNullAndNan c l').
Proof.
  intros N A B (s & x & S & V) (s' & x' & S' & V'). apply equal_alike.
  - rewrite S, S'. cbn [schema_of] in S, S'. apply bind_ok in S as (s0 & S0 & S). rewrite S0 in S'. cbn [bind] in S'. apply drop_null_schema_is in S, S'. cbv zeta in S, S'. rewrite S, S'.
    destruct l as [|y l]; [contradiction|]. destruct l' as [|y' l']; [destruct (A y (or_introl eq_refl))|]. f_equal. f_equal. apply map_ext. intros p. now rewrite (smem_same (fst p) _ _ A B).
  - rewrite V, V'. cbn [visit] in V, V'. apply bind_ok in V as ([t cs] & V0 & V). rewrite V0 in V'. cbn [bind] in V'. apply drop_null_form in V, V'. cbv zeta in V, V'. rewrite V, V'.
    destruct l as [|y l]; [contradiction|]. destruct l' as [|y' l']; [destruct (A y (or_introl eq_refl))|]. cbn [null_columns]. do 3 f_equal.
    + apply map_ext. intros p. now rewrite (smem_same (fst p) _ _ A B).
    + apply filter_ext. intros r. now rewrite (existsb_same _ _ _ A B).
Qed.
Lemma drop_inf_set_alike c l l' : l <> [] -> incl l l' -> incl l' l -> computed (DropInfinity c l) -> computed (DropInfinity c l') -> alike (DropInfinity c l) (DropInfinity c l').
Proof.
  intros N A B (s & x & S & V) (s' & x' & S' & V'). apply equal_alike.
  - rewrite S, S'. cbn [schema_of] in S, S'. apply bind_ok in S as (s0 & S0 & S). rewrite S0 in S'. cbn [bind] in S'. apply drop_inf_schema_is in S, S'. rewrite S, S'.
    destruct l as [|y l]; [contradiction|]. destruct l' as [|y' l']; [destruct (A y (or_introl eq_refl))|]. cbn [default_infinity]. f_equal. f_equal. apply map_ext. intros p. now rewrite (smem_same (fst p) _ _ A B).
  - rewrite V, V'. cbn [visit] in V, V'. apply bind_ok in V as ([t cs] & V0 & V). rewrite V0 in V'. cbn [bind] in V'. apply drop_inf_form in V, V'. cbv zeta in V, V'. rewrite V, V'.
    destruct l as [|y l]; [contradiction|]. destruct l' as [|y' l']; [destruct (A y (or_introl eq_refl))|]. cbn [inf_columns]. do 3 f_equal.
    + apply map_ext. intros p. now rewrite (smem_same (fst p) _ _ A B).
    + apply filter_ext. intros r. now rewrite (existsb_same _ _ _ A B).
Qed.
Lemma existsb_then {A} (p p' : A -> bool) (b : A -> bool) l l' : (forall x, In x l -> b x = true) -> (forall x, b x = true -> In x l) ->
  (forall x, p' x = p x && negb (b x)) -> existsb p (l ++ l') = existsb p l || existsb p' l'.
Proof.
  intros B B' P. rewrite existsb_app. destruct (existsb p l) eqn:E; [reflexivity|]. cbn [orb]. apply eq_true_iff_eq. rewrite !existsb_exists.
  split; intros (x & X & Y); exists x; (split; [exact X|]).
  - rewrite P, Y. cbn [andb]. destruct (b x) eqn:BX; [|reflexivity]. apply B' in BX. assert (existsb p l = true) by (apply existsb_exists; eauto). congruence.
  - rewrite P in Y. now apply andb_prop in Y.
Qed.
Lemma drop_nulls_alike c l l' : l <> [] -> l' <> [] -> computed (DropNullAndNan (DropNullAndNan c l) l') -> computed (DropNullAndNan c (l ++ l')%list) ->
  alike (DropNullAndNan (DropNullAndNan c l) l') (DropNullAndNan c (l ++ l')%list).
Proof.
  intros N N' (s & x & S & V) (s' & x' & S' & V').
  assert (L : (l ++ l')%list <> []) by (destruct l; [contradiction|discriminate]). set (ll := (l ++ l')%list) in *.
  apply equal_alike.
  - rewrite S, S'. cbn [schema_of] in S, S'. apply bind_ok in S as (s1 & S1 & S). apply bind_ok in S1 as (s0 & S0 & S1). rewrite S0 in S'. cbn [bind] in S'. apply drop_null_schema_is in S, S', S1. cbv zeta in S, S', S1. rewrite S, S', S1.
    destruct l as [|y l]; [contradiction|]. destruct l' as [|y' l']; [contradiction|]. assert (DL : forall z : list string, match ll with [] => z | _ => ll end = ll) by (intros z; destruct ll; [contradiction|reflexivity]).
    rewrite !DL. cbn [sc_cols sc_group sc_id sc_space]. f_equal. f_equal.
    rewrite map_map. apply map_ext. intros [k d]. cbn [fst snd cd_type cd_null cd_nan cd_inf]. subst ll. rewrite smem_app, negb_orb, !andb_assoc. reflexivity.
  - rewrite V, V'. cbn [visit] in V, V'. apply bind_ok in V as ([t1 cs1] & V1 & V). apply bind_ok in V1 as ([t cs] & V0 & V1). rewrite V0 in V'. cbn [bind] in V'.
    apply drop_null_form in V, V1, V'. cbv zeta in V, V1, V'. apply pair_equal_spec in V1 as (-> & ->). cbn [v_dom v_place v_rows v_coll] in V. rewrite V, V'.
    assert (NC : forall z p d, z <> [] -> null_columns z p d = z) by (intros [|z zs] p d Z; [contradiction|reflexivity]). rewrite !NC in * by assumption.
    rewrite simplify_idem. do 3 f_equal.
    + rewrite map_map. apply map_ext. intros [k d]. cbn [fst snd]. f_equal.
      rewrite (flag_null_off (v_dom t) (fun c => flag cd_null (v_dom t) c && smem c l) (fun c => flag cd_nan (v_dom t) c && smem c l) (fun _ => false)).
      rewrite (flag_nan_off (v_dom t) (fun c => flag cd_null (v_dom t) c && smem c l) (fun c => flag cd_nan (v_dom t) c && smem c l) (fun _ => false)).
      subst ll. rewrite smem_app. destruct (flag cd_null (v_dom t) k), (flag cd_nan (v_dom t) k), (smem k l), (smem k l'), d; reflexivity.
    + rewrite filter_filter. apply filter_ext. intros r. rewrite <- negb_orb. f_equal. symmetry. unfold ll.
      apply (existsb_then (fun c => bad (v_dom t) c (getv c r)) _ (fun c => smem c l)).
      * intros z. apply smem_In.
      * intros z. apply smem_In.
      * intros z. unfold bad.
        rewrite (flag_null_off (v_dom t) (fun c => flag cd_null (v_dom t) c && smem c l) (fun c => flag cd_nan (v_dom t) c && smem c l) (fun _ => false)).
        rewrite (flag_nan_off (v_dom t) (fun c => flag cd_null (v_dom t) c && smem c l) (fun c => flag cd_nan (v_dom t) c && smem c l) (fun _ => false)).
        destruct (flag cd_null (v_dom t) z), (flag cd_nan (v_dom t) z), (smem z l), (is_null (getv z r)), (is_nan (getv z r)); reflexivity.
Qed.
Lemma drop_infs_alike c l l' : l <> [] -> l' <> [] -> computed (DropInfinity (DropInfinity c l) l') -> computed (DropInfinity c (l ++ l')%list) ->
  alike (DropInfinity (DropInfinity c l) l') (DropInfinity c (l ++ l')%list).
Proof.
  intros N N' (s & x & S & V) (s' & x' & S' & V').
  assert (L : (l ++ l')%list <> []) by (destruct l; [contradiction|discriminate]). set (ll := (l ++ l')%list) in *.
  apply equal_alike.
  - rewrite S, S'. cbn [schema_of] in S, S'. apply bind_ok in S as (s1 & S1 & S). apply bind_ok in S1 as (s0 & S0 & S1). rewrite S0 in S'. cbn [bind] in S'. apply drop_inf_schema_is in S, S', S1. rewrite S, S', S1.
    assert (DI : forall z u, z <> [] -> default_infinity u z = z) by (intros [|z zs] u Z; [contradiction|reflexivity]). rewrite !DI by assumption. cbn [sc_cols sc_group sc_id sc_space]. f_equal. f_equal.
    rewrite map_map. apply map_ext. intros [k d]. cbn [fst snd cd_type cd_null cd_nan cd_inf]. subst ll. rewrite smem_app, negb_orb, !andb_assoc. reflexivity.
  - rewrite V, V'. cbn [visit] in V, V'. apply bind_ok in V as ([t1 cs1] & V1 & V). apply bind_ok in V1 as ([t cs] & V0 & V1). rewrite V0 in V'. cbn [bind] in V'.
    apply drop_inf_form in V, V1, V'. cbv zeta in V, V1, V'. apply pair_equal_spec in V1 as (-> & ->). cbn [v_dom v_place v_rows v_coll] in V. rewrite V, V'.
    assert (NC : forall z d, z <> [] -> inf_columns z d = z) by (intros [|z zs] d Z; [contradiction|reflexivity]). rewrite !NC in * by assumption.
    rewrite simplify_idem. do 3 f_equal.
    + rewrite map_map. apply map_ext. intros [k d]. cbn [fst snd]. f_equal. rewrite off_off. subst ll. now rewrite smem_app.
    + rewrite filter_filter. apply filter_ext. intros r. rewrite <- negb_orb. f_equal. symmetry. unfold ll. apply existsb_app.
Qed.
Lemma filter_map_ext {A B} (f : A -> B) (p : B -> bool) (q : A -> bool) l : (forall x, p (f x) = q x) -> filter p (map f l) = map f (filter q l).
Proof. apply filter_map_comm. Qed.
Lemma drop_null_inf_alike c l l' : computed (DropNullAndNan (DropInfinity c l) l') -> computed (DropInfinity (DropNullAndNan c l') l) ->
  alike (DropNullAndNan (DropInfinity c l) l') (DropInfinity (DropNullAndNan c l') l).
Proof.
  intros (s & x & S & V) (s' & x' & S' & V').
  apply equal_alike.
  - rewrite S, S'. cbn [schema_of] in S, S'. apply bind_ok in S as (s1 & S1 & S). apply bind_ok in S1 as (s0 & S0 & S1). apply bind_ok in S' as (s1' & S1' & S'). apply bind_ok in S1' as (s0' & S0' & S1').
    rewrite S0 in S0'. injection S0' as <-. apply drop_inf_schema_is in S1, S'. apply drop_null_schema_is in S, S1'. cbv zeta in S, S1'. rewrite S1 in S. rewrite S1' in S'. rewrite S, S'.
    cbn [sc_cols sc_group sc_id sc_space]. f_equal. f_equal. rewrite !map_map. apply map_ext. intros [k d]. cbn [fst snd cd_type cd_null cd_nan cd_inf].
    f_equal. f_equal.
    + destruct l' as [|z l']; [|reflexivity]. do 3 f_equal. unfold dkeys. rewrite (filter_map_comm _ _ (fun p => (cd_null (snd p) || cd_nan (snd p)) && not_special s0 (fst p))) by reflexivity. rewrite map_map. reflexivity.
    + destruct l' as [|z l']; [|reflexivity]. do 3 f_equal. unfold dkeys. rewrite (filter_map_comm _ _ (fun p => (cd_null (snd p) || cd_nan (snd p)) && not_special s0 (fst p))) by reflexivity. rewrite map_map. reflexivity.
    + destruct l as [|z l]; [|reflexivity]. unfold default_infinity. cbn [sc_cols]. do 3 f_equal. unfold dkeys. rewrite (filter_map_comm _ _ (fun p => is_decimal (snd p) && cd_inf (snd p) && not_special s0 (fst p))) by reflexivity. rewrite map_map. reflexivity.
  - rewrite V, V'. cbn [visit] in V, V'. apply bind_ok in V as ([t1 cs1] & V1 & V). apply bind_ok in V1 as ([t cs] & V0 & V1). apply bind_ok in V' as ([t1' cs1'] & V1' & V'). rewrite V0 in V1'. cbn [bind] in V1'.
    apply drop_inf_form in V1, V'. apply drop_null_form in V, V1'. cbv zeta in V, V1, V', V1'. apply pair_equal_spec in V1 as (-> & ->). apply pair_equal_spec in V1' as (-> & ->). cbn [v_dom v_place v_rows v_coll] in V, V'. rewrite V, V'.
    set (ic := inf_columns l (v_dom t)). set (nc := null_columns l' (v_place t) (v_dom t)).
    assert (NC : null_columns l' (v_place t) (map (fun p => (fst p, off false false (smem (fst p) ic) (snd p))) (v_dom t)) = nc).
    { unfold nc, null_columns. destruct l' as [|z l']; [|reflexivity]. rewrite map_map. cbn [fst snd]. unfold dkeys.
      rewrite (filter_map_comm (fun q => (fst q, view (off false false (smem (fst q) ic) (snd q)))) _ (fun q => (cd_null (view (snd q)) || cd_nan (view (snd q))) && negb (is_col (metric_column (v_place t)) (fst q)))).
      - rewrite (filter_map_comm (fun q => (fst q, view (snd q))) _ (fun q => (cd_null (view (snd q)) || cd_nan (view (snd q))) && negb (is_col (metric_column (v_place t)) (fst q)))) by reflexivity. rewrite !map_map. reflexivity.
      - intros [k d]. cbn [fst snd]. destruct d, (smem k ic); reflexivity. }
    assert (IC : forall h h', inf_columns l (map (fun p => (fst p, off (h (fst p)) (h' (fst p)) false (snd p))) (v_dom t)) = ic).
    { intros h h'. unfold ic, inf_columns. destruct l as [|z l]; [|reflexivity]. rewrite map_map. cbn [fst snd]. unfold dkeys.
      rewrite (filter_map_comm (fun q => (fst q, view (off (h (fst q)) (h' (fst q)) false (snd q)))) _ (fun q => is_decimal (view (snd q)) && cd_inf (view (snd q)))).
      - rewrite (filter_map_comm (fun q => (fst q, view (snd q))) _ (fun q => is_decimal (view (snd q)) && cd_inf (view (snd q)))) by reflexivity. rewrite !map_map. reflexivity.
      - intros [k d]. cbn [fst snd]. destruct d, (h k), (h' k); reflexivity. }
    rewrite NC. rewrite (IC (fun c => flag cd_null (v_dom t) c && smem c nc) (fun c => flag cd_nan (v_dom t) c && smem c nc)).
    assert (FN : forall c, flag cd_null (map (fun p => (fst p, off false false (smem (fst p) ic) (snd p))) (v_dom t)) c = flag cd_null (v_dom t) c).
    { intros k. rewrite (flag_null_off (v_dom t) (fun _ => false) (fun _ => false) (fun c => smem c ic)). apply andb_true_r. }
    assert (FA : forall c, flag cd_nan (map (fun p => (fst p, off false false (smem (fst p) ic) (snd p))) (v_dom t)) c = flag cd_nan (v_dom t) c).
    { intros k. rewrite (flag_nan_off (v_dom t) (fun _ => false) (fun _ => false) (fun c => smem c ic)). apply andb_true_r. }
    do 3 f_equal.
    + rewrite !map_map. apply map_ext. intros [k d]. cbn [fst snd]. rewrite FN, FA, !off_off, !orb_false_r. reflexivity.
    + rewrite filter_swap. f_equal. apply filter_ext. intros r. f_equal. unfold bad. clear -FN FA. induction nc as [|k n IH]; [reflexivity|]. cbn [existsb]. now rewrite FN, FA, IH.
Qed.

(** Every law. *)
(** *** Filters and replacing, flat maps and public joins *)

Lemma filter_flat_comm {A B} (f : A -> list B) (p : B -> bool) (q : A -> bool) l : (forall x y, In y (f x) -> p y = q x) ->
  filter p (flat_map f l) = flat_map f (filter q l).
Proof.
  intros H. induction l as [|x l IH]; [reflexivity|]. cbn [filter flat_map]. rewrite filter_app, IH.
  assert (E : filter p (f x) = if q x then f x else []).
  { specialize (H x). induction (f x) as [|y k IHk]; [now destruct (q x)|]. cbn [filter]. rewrite (H y (or_introl eq_refl)), IHk by (intros z Z; apply H; now right). now destruct (q x). }
  rewrite E. now destruct (q x).
Qed.
(** What a propagation may do to the bounds so that it can be done before or after simplifying. *)
Lemma simplify_before P R G Q :
  (forall cs, rows_bounds (P cs) = R (rows_bounds cs) /\ group_bounds (P cs) = G (group_bounds cs) /\ rpg_bounds (P cs) = Q (rpg_bounds cs)) ->
  (forall l, least (R (least l)) = least (R l)) -> (forall l, lows (G (lows l [])) [] = lows (G l) []) -> (forall l, lows (Q (lows l [])) [] = lows (Q l) []) ->
  forall cs, simplify (P (simplify cs)) = simplify (P cs).
Proof.
  intros H HR HG HQ cs. rewrite (simplify_parts (P (simplify cs))), (simplify_parts (P cs)).
  destruct (H (simplify cs)) as (A1 & A2 & A3), (H cs) as (B1 & B2 & B3). rewrite A1, A2, A3, B1, B2, B3.
  pose proof (bounds_of_parts (least (rows_bounds cs)) (lows (group_bounds cs) []) (lows (rpg_bounds cs) [])) as X. cbv zeta in X.
  rewrite <- simplify_parts in X. destruct X as (P1 & P2 & P3). now rewrite P1, P2, P3, HR, HG, HQ.
Qed.
Lemma subjects_first sub l : lows (flat_map (subject sub) (lows l [])) [] = lows (flat_map (subject sub) l) [].
Proof. exact (subjects_lows sub l [] []). Qed.
Lemma subject_all l : flat_map (subject Some) l = l.
Proof. induction l as [|[x y] d IH]; [reflexivity|]. cbn [flat_map]. unfold subject at 1. cbn [app fst snd]. now rewrite IH. Qed.
Lemma lows_first l : lows (lows l []) [] = lows l [].
Proof. pose proof (subjects_first Some l) as H. now rewrite !subject_all in H. Qed.
Lemma least_first l : least (least l) = least l.
Proof. pose proof (least_least l []) as H. now rewrite !app_nil_r in H. Qed.
Lemma simplify_replace_first l cs : simplify (propagate_replace l (simplify cs)) = simplify (propagate_replace l cs).
Proof.
  apply (simplify_before _ (fun l => l) (fun l => l) (flat_map (subject (fun g => if smem g l then None else Some g)))).
  - unfold rows_bounds, group_bounds, rpg_bounds, propagate_replace. intros ds. induction ds as [|c ds (A & B & C)]; [repeat split|]. cbn [filter].
    destruct c as [m|g m|g m]; cbn [flat_map app]; rewrite ?A, ?B, ?C; try (repeat split; reflexivity).
    assert (E : subject (fun g0 => if smem g0 l then None else Some g0) (g, m) = if smem g l then [] else [(g, m)]) by (unfold subject; cbn [fst snd]; now destruct (smem g l)).
    rewrite E. destruct (smem g l); cbn [negb flat_map app]; rewrite ?A, ?B, ?C; repeat split; reflexivity.
  - exact least_first.
  - exact lows_first.
  - apply subjects_first.
Qed.
Definition only_groups : list constraint -> list constraint := filter (fun c => match c with MaxGroupsPerID _ _ => true | _ => false end).
Lemma simplify_flat_map_first cs : simplify (only_groups (simplify cs)) = simplify (only_groups cs).
Proof.
  apply (simplify_before _ (fun _ => []) (fun l => l) (fun _ => [])); try reflexivity.
  - unfold rows_bounds, group_bounds, rpg_bounds, only_groups. intros ds. induction ds as [|c ds (A & B & C)]; [repeat split|]. cbn [filter].
    destruct c as [m|g m|g m]; cbn [flat_map app]; rewrite ?A, ?B, ?C; repeat split; reflexivity.
  - exact lows_first.
Qed.
(** Bounds times a constant. *)
Definition times (k : nat) (p : string * nat) : string * nat := (fst p, snd p * k).
Lemma low_times k g m d : map (times k) (low g m d) = low g (m * k) (map (times k) d).
Proof.
  induction d as [|[x v] d IH]; [reflexivity|]. cbn [low map times fst snd]. unfold times at 2. cbn [low fst snd].
  destruct (String.eqb g x); cbn [map]; unfold times at 1; cbn [fst snd]; [|now rewrite IH]. now rewrite Nat.mul_min_distr_r.
Qed.
Lemma lows_times k l : forall d, map (times k) (lows l d) = lows (map (times k) l) (map (times k) d).
Proof. induction l as [|[g m] l IH]; intros d; [reflexivity|]. cbn [lows fold_left map fst snd]. fold (lows l (low g m d)). rewrite IH, low_times. reflexivity. Qed.
Lemma least_times k l : least (map (fun m => m * k) (least l)) = least (map (fun m => m * k) l).
Proof.
  destruct l as [|m l]; [reflexivity|]. cbn [least map]. unfold list_min at 1. cbn [fold_left]. f_equal. revert m. unfold list_min.
  induction l as [|x l IH]; intros m; [reflexivity|]. cbn [fold_left map]. rewrite IH. now rewrite Nat.mul_min_distr_r.
Qed.
Lemma simplify_join_first cols ov pub cs : simplify (propagate_join_public cols ov pub (simplify cs)) = simplify (propagate_join_public cols ov pub cs).
Proof.
  unfold propagate_join_public. set (col := fun g => if smem g ov then (g ++ "_left")%string else g).
  destruct (public_stability cols pub) as [|k].
  - apply (simplify_before _ (fun _ => []) (flat_map (subject (fun g => Some (col g)))) (fun _ => [])); try reflexivity; [|apply subjects_first].
    unfold rows_bounds, group_bounds, rpg_bounds. intros ds. induction ds as [|c ds (A & B & C)]; [repeat split|]. cbn [flat_map]. rewrite !flat_map_app, A, B, C.
    destruct c as [m|g m|g m]; cbn [by_stability flat_map app]; repeat split; reflexivity.
  - apply (simplify_before _ (map (fun m => m * Datatypes.S k)) (flat_map (subject (fun g => Some (col g)))) (fun l => map (times (Datatypes.S k)) (flat_map (subject (fun g => Some (col g))) l))).
    + unfold rows_bounds, group_bounds, rpg_bounds. intros ds. induction ds as [|c ds (A & B & C)]; [repeat split|]. cbn [flat_map]. rewrite !flat_map_app, A, B, C.
      destruct c as [m|g m|g m]; cbn [by_stability flat_map app map]; repeat split; reflexivity.
    + apply least_times.
    + apply subjects_first.
    + intros l. change (@nil (string * nat)) with (map (times (Datatypes.S k)) []) at 2. rewrite <- lows_times, subjects_first, lows_times. reflexivity.
Qed.

Lemma getv_replace (F : string * value -> string * value) k (r : rec) : (forall p, fst (F p) = fst p) -> (forall v, F (k, v) = (k, v)) -> getv k (map F r) = getv k r.
Proof.
  intros H1 H2. unfold getv. induction r as [|[x v] r IH]; [reflexivity|]. cbn [map dget]. specialize (H1 (x, v)). destruct (F (x, v)) as [x' v'] eqn:E. cbn [fst] in H1. subst x'. cbn [fst].
  destruct (String.eqb_spec k x) as [->|N]; [|exact IH]. rewrite H2 in E. now injection E as ->.
Qed.
Lemma getv_nulls k m r : ~ In k (dkeys m) -> getv k (replace_nulls m r) = getv k r.
Proof.
  intros N. apply getv_replace.
  - intros [x v]. cbn [fst snd]. destruct v; try reflexivity. now destruct (dget x m).
  - intros v. cbn [fst snd]. destruct v; try reflexivity. assert (D : dget k m = None) by now apply dget_None. now rewrite D.
Qed.
Lemma getv_nans k m r : ~ In k (dkeys m) -> getv k (replace_nans m r) = getv k r.
Proof.
  intros N. assert (D : dget k m = None) by now apply dget_None. apply getv_replace.
  - intros [x v]. cbn [fst snd]. destruct v as [|z|f|u|u|u]; try reflexivity; destruct f; try reflexivity. now destruct (dget x m).
  - intros v. cbn [fst snd]. destruct v as [|z|f|u|u|u]; try reflexivity; destruct f; try reflexivity. now rewrite D.
Qed.
Lemma getv_infs k m r : ~ In k (dkeys m) -> getv k (replace_infs m r) = getv k r.
Proof.
  intros N. assert (D : dget k m = None) by now apply dget_None. apply getv_replace.
  - intros [x v]. cbn [fst snd]. destruct v as [|z|f|u|u|u]; try reflexivity; destruct f; try reflexivity; now destruct (dget x m).
  - intros v. cbn [fst snd]. destruct v as [|z|f|u|u|u]; try reflexivity; destruct f; try reflexivity; now rewrite D.
Qed.
Lemma filtered_keys {V} (p : string * V -> bool) (d : dict V) k : In k (dkeys (filter p d)) -> In k (dkeys d).
Proof. unfold dkeys. rewrite !in_map_iff. intros (x & E & I). apply filter_In in I as (I & _). now exists x. Qed.
Lemma replaced_keys rw an g m k : rw <> [] -> get_replace_with rw an g = Ok m -> In k (dkeys m) -> In k (dkeys rw).
Proof.
  intros N H I. destruct rw as [|p0 rw0]; [congruence|]. unfold get_replace_with in H. apply bind_ok in H as (u & _ & H).
  set (l := p0 :: rw0) in *. clearbody l. clear N. revert m H I. induction l as [|p l IH]; intros m H I; [injection H as <-; destruct I|]. cbn [mapM] in H.
  apply bind_ok in H as (y & Y & H). apply bind_ok in H as (ys & YS & H). injection H as <-. destruct I as [E|I]; [|right; exact (IH ys YS I)].
  left. destruct (dget (fst p) an) as [d|]; [|discriminate]. destruct (is_decimal d); [apply bind_ok in Y as (v & _ & Y)|]; injection Y as <-; exact E.
Qed.

Lemma filter_replace_null_alike c rw a ks : rw <> [] -> reads W a ks -> (forall k, In k ks -> ~ In k (dkeys rw)) ->
  computed (Filter (ReplaceNullAndNan c rw) a) -> computed (ReplaceNullAndNan (Filter c a) rw) -> alike (Filter (ReplaceNullAndNan c rw) a) (ReplaceNullAndNan (Filter c a) rw).
Proof.
  intros N R I C C'. apply equal_alike; [now apply (filter_op_schema (fun c => ReplaceNullAndNan c rw) (replace_null_schema rw) c a)|].
  cbn [visit]. destruct (vis c) as [[t cs]|e]; [|reflexivity]. cbn [bind visit_filter]. unfold visit_replace_null. cbn [v_dom v_place v_rows v_coll].
  destruct (raise_if _ _) as [u|e]; [|reflexivity]. cbn [bind]. destruct (core_to_analytics _) as [an|e]; [|reflexivity]. cbn [bind].
  destruct (get_replace_with _ _ _) as [m|e] eqn:M; [|reflexivity]. cbn [bind visit_filter v_dom v_place v_rows v_coll].
  rewrite simplify_idem, simplify_replace_first. do 3 f_equal. apply filter_map_comm. intros r. apply R. intros k K.
  rewrite getv_nans, getv_nulls; [reflexivity| |]; intros J; apply filtered_keys in J; exact (I k K (replaced_keys _ _ _ _ _ N M J)).
Qed.
Lemma filter_replace_inf_alike c rw a ks : rw <> [] -> reads W a ks -> (forall k, In k ks -> ~ In k (dkeys rw)) ->
  computed (Filter (ReplaceInfinity c rw) a) -> computed (ReplaceInfinity (Filter c a) rw) -> alike (Filter (ReplaceInfinity c rw) a) (ReplaceInfinity (Filter c a) rw).
Proof.
  intros N R I C C'. apply equal_alike; [now apply (filter_op_schema (fun c => ReplaceInfinity c rw) (replace_inf_schema rw) c a)|].
  cbn [visit]. destruct (vis c) as [[t cs]|e]; [|reflexivity]. cbn [bind visit_filter]. unfold visit_replace_inf. cbn [v_dom v_place v_rows v_coll].
  destruct (core_to_analytics _) as [an|e]; [|reflexivity]. cbn [bind]. destruct (mk_schema _ _ _ _) as [u|e]; [|reflexivity]. cbn [bind].
  destruct (raise_if _ _) as [u'|e]; [|reflexivity]. cbn [bind visit_filter v_dom v_place v_rows v_coll].
  rewrite simplify_idem, simplify_replace_first. do 3 f_equal. apply filter_map_comm. intros r. apply R. intros k K.
  destruct rw as [|p0 rw0]; [congruence|]. now rewrite getv_infs by exact (I k K).
Qed.
Lemma filter_flat_map_alike c f n mr a ks : NoDup (dkeys (sc_cols n)) -> reads W a ks -> (forall k, In k ks -> ~ In k (dkeys (sc_cols n))) ->
  computed (Filter (FlatMap c f n true mr) a) -> computed (FlatMap (Filter c a) f n true mr) -> alike (Filter (FlatMap c f n true mr) a) (FlatMap (Filter c a) f n true mr).
Proof.
  intros N R I C C'. apply equal_alike; [now apply (filter_op_schema (fun c => FlatMap c f n true mr) (flat_map_schema n true) c a)|].
  cbn [visit]. destruct (vis c) as [[t cs]|e]; [|reflexivity]. cbn [bind visit_filter]. unfold visit_flat_map. cbn [v_dom v_place v_rows v_coll].
  match goal with |- context[bind (if in_collection (v_place t) then ?x else ?y) _] => destruct (if in_collection (v_place t) then x else y) as [z|e]; [|reflexivity] end.
  cbn [bind propagate_flat_map raise_if negb andb visit_filter v_dom v_place v_rows v_coll].
  fold only_groups. rewrite simplify_idem, simplify_flat_map_first. do 3 f_equal. apply filter_flat_comm. intros r r' J. apply R. intros k K.
  unfold flat_map_row in J. apply in_map_iff in J as (o & <- & _).
  rewrite getv_merge by (unfold new_cells; now rewrite dkeys_select).
  destruct (dmem k _) eqn:D; [|reflexivity]. apply dmem_In in D. unfold new_cells in D. rewrite dkeys_select in D. destruct (I k K D).
Qed.
Lemma getv_joined on lc rc r s k : In k on -> getv k (join_row on lc rc r s) = getv k r.
Proof.
  intros I. unfold join_row. match goal with |- getv k (_ ++ ?x)%list = _ => generalize x end. intros x. unfold getv at 1.
  induction on as [|c on IH]; [destruct I|]. cbn [map app dget fst].
  destruct (String.eqb_spec k c) as [->|N]; [reflexivity|]. destruct I as [->|I]; [contradiction|exact (IH I)].
Qed.
Lemma filter_join_public_alike c p on how a ks : reads W a ks -> incl ks on ->
  computed (Filter (JoinPublic c p (Some on) how) a) -> computed (JoinPublic (Filter c a) p (Some on) how) ->
  alike (Filter (JoinPublic c p (Some on) how) a) (JoinPublic (Filter c a) p (Some on) how).
Proof.
  intros R I C C'. apply equal_alike; [now apply (filter_op_schema (fun c => JoinPublic c p (Some on) how) (fun s => join_public_schema cat s p (Some on) how) c a)|].
  cbn [visit]. destruct (vis c) as [[t cs]|e]; [|reflexivity]. cbn [bind visit_filter]. unfold visit_join_public. cbn [v_dom v_place v_rows v_coll join_columns].
  destruct (public_frame _ _) as [fr|e]; [|reflexivity]. cbn [bind]. destruct (spark_schema_to_analytics_columns _) as [pd|e]; [|reflexivity]. cbn [bind].
  destruct (mk_schema _ _ _ _) as [ps|e]; [|reflexivity]. cbn [bind]. destruct (join_domain _ _ _ _) as [d|e]; [|reflexivity]. cbn [bind].
  destruct (raise_if _ _) as [u|e]; [|reflexivity]. cbn [bind visit_filter v_dom v_place v_rows v_coll].
  rewrite simplify_idem, simplify_join_first. do 3 f_equal.
  destruct (negb (in_collection (v_place t)) && String.eqb how "left"); apply filter_flat_comm; intros r r' J; apply R; intros k K.
  - destruct (filter _ (frame_rows fr)) as [|y ys] eqn:F; [destruct J as [<-|[]]; now apply getv_joined, I|]. apply in_map_iff in J as (z & <- & _). now apply getv_joined, I.
  - apply in_map_iff in J as (z & <- & _). now apply getv_joined, I.
Qed.

(** After a replacement there is nothing to drop. *)
Lemma replaced_all rw an g m : rw <> [] -> get_replace_with rw an g = Ok m -> dkeys m = dkeys rw.
Proof.
  intros N H. destruct rw as [|p0 rw0]; [congruence|]. unfold get_replace_with in H. apply bind_ok in H as (u & _ & H).
  set (l := p0 :: rw0) in *. clearbody l. clear N. revert m H. induction l as [|p l IH]; intros m H; [injection H as <-; reflexivity|]. cbn [mapM] in H.
  apply bind_ok in H as (y & Y & H). apply bind_ok in H as (ys & YS & H). injection H as <-. cbn [dkeys map]. fold (dkeys ys). fold (dkeys l). rewrite (IH ys YS). f_equal.
  destruct (dget (fst p) an) as [d|]; [|discriminate]. destruct (is_decimal d); [apply bind_ok in Y as (v & _ & Y)|]; injection Y as <-; reflexivity.
Qed.
Lemma smem_keys_filter {V} (p : string -> bool) (m : dict V) c : smem c (dkeys (filter (fun q => p (fst q)) m)) = p c && smem c (dkeys m).
Proof.
  rewrite <- smem_filter. f_equal. induction m as [|[k v] m IH]; [reflexivity|]. cbn [filter dkeys map fst]. fold (dkeys m).
  destruct (p k); cbn [dkeys map fst]; fold (dkeys m); fold (dkeys (filter (fun q => p (fst q)) m)); now rewrite IH.
Qed.
Lemma replace_null_clean rw t cs t1 cs1 l : rw <> [] -> incl l (dkeys rw) -> visit_replace_null rw (t, cs) = Ok (t1, cs1) ->
  (exists cs0, cs1 = simplify cs0) /\ forall c, In c l -> flag cd_null (v_dom t1) c = false /\ flag cd_nan (v_dom t1) c = false.
Proof.
  intros N I H. unfold visit_replace_null in H. apply bind_ok in H as (u & _ & H). rewrite core_to_analytics_view in H. cbn [bind] in H.
  set (an := map (fun p => (fst p, view (snd p))) (v_dom t)) in *. apply bind_ok in H as (m & M & H). apply replaced_all in M; [|exact N]. injection H as <- <-. split; [eexists; reflexivity|].
  intros c C. cbn [v_dom]. unfold flag. rewrite !at_columns_dget.
  rewrite (smem_keys_filter (fun k => match dget k an with Some d => is_decimal d && cd_nan d | None => false end)), (smem_keys_filter (fun k => match dget k an with Some d => cd_null d | None => false end)), M.
  assert (SM : smem c (dkeys rw) = true) by (apply smem_In, I, C). rewrite SM, !andb_true_r.
  unfold an. rewrite (dget_by_key (fun _ k => view k)). destruct (dget c (v_dom t)) as [k|]; [|split; reflexivity].
  cbn [option_map]. destruct k as [[|] [|] i|[|]|[|]|[|]|[|]]; split; reflexivity.
Qed.
Lemma replace_drop_null_alike c rw l : l <> [] -> rw <> [] -> incl l (dkeys rw) -> computed (DropNullAndNan (ReplaceNullAndNan c rw) l) -> computed (ReplaceNullAndNan c rw) ->
  alike (DropNullAndNan (ReplaceNullAndNan c rw) l) (ReplaceNullAndNan c rw).
Proof.
  intros L N I (s & x & S & V) (s' & x' & S' & V'). apply equal_alike.
  - rewrite S. cbn [schema_of] in S, S' |- *. apply bind_ok in S as (s1 & S1 & S). cbn [schema_of] in S1. rewrite S1. apply bind_ok in S1 as (s0 & S0 & S1).
    apply drop_null_schema_is in S. cbv zeta in S. rewrite S. destruct l as [|y l]; [contradiction|]. set (ll := y :: l) in *.
    unfold replace_null_schema in S1. apply bind_ok in S1 as (u1 & _ & S1). apply bind_ok in S1 as (u2 & _ & S1). apply bind_ok in S1 as (u3 & _ & S1).
    unfold rebuild in S1. apply mk_schema_ok in S1 as (_ & _ & _ & ->). cbn [sc_cols sc_group sc_id sc_space]. do 2 f_equal.
    rewrite map_map. apply map_ext. intros [k d]. cbn [fst snd cd_type cd_null cd_nan cd_inf].
    destruct rw as [|p0 rw0]; [congruence|]. cbn [dkeys map] in I |- *. fold (dkeys rw0) in *.
    destruct (smem k ll) eqn:E; [|now rewrite !andb_true_r]. apply smem_In in E. apply I in E. apply smem_In in E. rewrite E. cbn [negb]. now rewrite !andb_false_r.
  - rewrite V. cbn [visit] in V, V' |- *. apply bind_ok in V as ([t1 cs1] & V1 & V). cbn [visit] in V1. rewrite V1. apply bind_ok in V1 as ([t cs] & V0 & V1).
    destruct (replace_null_clean _ _ _ _ _ l N I V1) as ((cs0 & ->) & F). apply drop_null_form in V. cbv zeta in V. rewrite V. rewrite simplify_idem.
    assert (NC : null_columns l (v_place t1) (v_dom t1) = l) by (destruct l; [contradiction|reflexivity]). rewrite NC. do 2 f_equal. destruct t1 as [dm co pl rs]. cbn [v_dom v_coll v_place v_rows] in *. f_equal.
    + transitivity (map (fun p => p) dm); [|apply map_id]. apply map_ext. intros [k d]. cbn [fst snd]. destruct (smem k l) eqn:E; [|now rewrite !andb_false_r].
      apply smem_In in E. destruct (F k E) as (-> & ->). reflexivity.
    + rewrite (filter_ext_in _ (fun _ => true)); [clear; induction rs as [|r rs IH]; [reflexivity|cbn [filter]; now rewrite IH]|].
      intros r _. apply negb_true_iff. apply not_true_iff_false. intros E. apply existsb_exists in E as (k & K & B). unfold bad in B. destruct (F k K) as (A1 & A2). rewrite A1, A2 in B. discriminate B.
Qed.

Lemma replaced_finite (rw : dict (fnum * fnum)) k r : In k (dkeys rw) -> Forall (fun p => is_inf (VFloat (fst (snd p))) = false /\ is_inf (VFloat (snd (snd p))) = false) rw ->
  is_inf (getv k (replace_infs rw r)) = false.
Proof.
  intros K F. unfold getv, replace_infs. induction r as [|[x v] r IH]; [reflexivity|].
  destruct (dget k rw) as [b|] eqn:B; [|apply dget_None in B; contradiction].
  assert (D := proj1 (Forall_forall _ _) F _ (dget_In _ _ _ B)). cbn [fst snd] in D. destruct D as (D1 & D2).
  cbn [map fst snd]. destruct (String.eqb_spec k x) as [<-|N].
  - rewrite B. destruct v as [|z|f|u|u|u]; try (cbn [dget]; now rewrite String.eqb_refl). destruct f; cbn [dget]; rewrite String.eqb_refl; try reflexivity; assumption.
  - match goal with |- context[dget k (?p :: map ?g r)] => assert (E : dget k (p :: map g r) = dget k (map g r)) end; [|rewrite E; exact IH].
    apply String.eqb_neq in N. destruct v as [|z|f|u|u|u]; try (cbn [dget]; now rewrite N). destruct f, (dget x rw); cbn [dget]; now rewrite N.
Qed.
Lemma replace_drop_inf_alike c rw l : l <> [] -> rw <> [] -> incl l (dkeys rw) -> Forall (fun p => is_inf (VFloat (fst (snd p))) = false /\ is_inf (VFloat (snd (snd p))) = false) rw ->
  computed (DropInfinity (ReplaceInfinity c rw) l) -> computed (ReplaceInfinity c rw) -> alike (DropInfinity (ReplaceInfinity c rw) l) (ReplaceInfinity c rw).
Proof.
  intros L N I FF (s & x & S & V) (s' & x' & S' & V'). apply equal_alike.
  - rewrite S. cbn [schema_of] in S, S' |- *. apply bind_ok in S as (s1 & S1 & S). cbn [schema_of] in S1. rewrite S1. apply bind_ok in S1 as (s0 & S0 & S1).
    apply drop_inf_schema_is in S. rewrite S. destruct l as [|y l]; [contradiction|]. unfold default_infinity. set (ll := y :: l) in *.
    unfold replace_inf_schema in S1. apply bind_ok in S1 as (u1 & _ & S1). apply bind_ok in S1 as (u2 & _ & S1). apply bind_ok in S1 as (u3 & _ & S1).
    unfold no_infinity, rebuild in S1. apply mk_schema_ok in S1 as (_ & _ & _ & ->). cbn [sc_cols sc_group sc_id sc_space]. do 2 f_equal.
    rewrite map_map. apply map_ext. intros [k d]. cbn [fst snd cd_type cd_null cd_nan cd_inf].
    destruct rw as [|p0 rw0]; [congruence|]. cbn [default_infinity dkeys map] in I |- *. fold (dkeys rw0) in *.
    destruct (smem k ll) eqn:E; [|now rewrite !andb_true_r]. apply smem_In in E. apply I in E. apply smem_In in E. rewrite E. cbn [negb]. now rewrite !andb_false_r.
  - rewrite V. cbn [visit] in V, V' |- *. apply bind_ok in V as ([t1 cs1] & V1 & V). cbn [visit] in V1. rewrite V1. apply bind_ok in V1 as ([t cs] & V0 & V1).
    apply drop_inf_form in V. cbv zeta in V. rewrite V.
    unfold visit_replace_inf in V1. apply bind_ok in V1 as (an & _ & V1). apply bind_ok in V1 as (u1 & _ & V1). apply bind_ok in V1 as (u2 & _ & V1). injection V1 as <- <-.
    rewrite simplify_idem. cbn [v_dom v_coll v_place v_rows]. destruct rw as [|p0 rw0]; [congruence|]. set (m := p0 :: rw0) in *.
    assert (NC : forall d, inf_columns l d = l) by (intros d; destruct l; [contradiction|reflexivity]). rewrite NC. do 3 f_equal.
    + unfold at_columns. rewrite map_map. apply map_ext. intros [k d]. cbn [fst snd]. destruct (smem k l) eqn:E; [|reflexivity].
      apply smem_In in E. apply I in E. apply smem_In in E. rewrite E. destruct d; reflexivity.
    + generalize (v_rows t). intros rs. induction rs as [|r rs IH]; [reflexivity|]. cbn [map filter]. rewrite IH.
      destruct (existsb _ l) eqn:E; [|reflexivity]. apply existsb_exists in E as (k & K & B). rewrite (replaced_finite m k r (I k K) FF) in B. discriminate B.
Qed.

Lemma map_unused_alike c f n l : NoDup (dkeys (sc_cols n)) -> (forall k, In k l -> ~ In k (dkeys (sc_cols n))) ->
  computed (Select (MapQ c f n true) l) -> computed (Select c l) -> alike (Select (MapQ c f n true) l) (Select c l).
Proof.
  intros N I (s & x & S & V) (s' & x' & S' & V'). apply equal_alike.
  - rewrite S, S'. cbn [schema_of] in S, S'. apply bind_ok in S as (s1 & S1 & S). apply bind_ok in S1 as (s0 & S0 & S1). rewrite S0 in S'. cbn [bind] in S'.
    unfold map_schema in S1. apply bind_ok in S1 as ([] & _ & S1). apply mk_schema_ok in S1 as (_ & _ & _ & ->). unfold select_schema in S, S'. cbn [sc_cols sc_group sc_id sc_space] in S.
    apply bind_ok in S as (u4 & _ & S). apply bind_ok in S as (u5 & _ & S). apply bind_ok in S as (u6 & _ & S). apply bind_ok in S as (p2 & P2 & S).
    apply bind_ok in S' as (u7 & _ & S'). apply bind_ok in S' as (u8 & _ & S'). apply bind_ok in S' as (u9 & _ & S'). apply bind_ok in S' as (p3 & P3 & S').
    apply mk_schema_ok in S as (_ & _ & _ & ->). apply mk_schema_ok in S' as (_ & _ & _ & ->). f_equal. f_equal.
    unfold pick in P2, P3. rewrite (mapM_ext _ (fun c => let* x := lookup_col (sc_cols s0) c in Ok (c, x))) in P2; [congruence|].
    assert (K' : dkeys (new_columns n) = dkeys (sc_cols n)) by (unfold new_columns, dkeys; rewrite map_map; reflexivity).
    intros k K. unfold lookup_col. rewrite dget_merge by now rewrite K'. assert (dget k (new_columns n) = None) as ->; [|reflexivity].
    apply dget_None. rewrite K'. now apply I.
  - cbn [visit]. destruct (vis c) as [[t cs]|e]; [|reflexivity]. cbn [bind visit_map propagate_map negb andb raise_if]. rewrite andb_false_r.
    cbn [raise_if bind visit_select v_place v_dom v_rows v_coll].
    assert (K' : dkeys (new_core n) = dkeys (sc_cols n)) by (unfold new_core, dkeys; rewrite map_map; reflexivity).
    rewrite (mapM_ext _ (fun c => match dget c (v_dom t) with Some k => Ok (c, k) | None => Err ValueError end)).
    + destruct (mapM _ l) as [d|e]; [|reflexivity]. cbn [bind]. destruct (raise_if _ _) as [u|e]; [|reflexivity]. cbn [bind]. rewrite simplify_select_first. do 3 f_equal.
      rewrite map_map. apply map_ext. intros r. unfold select_row. apply map_ext_in. intros k K. f_equal. unfold map_row.
      rewrite getv_merge by (unfold new_cells; now rewrite dkeys_select).
      destruct (dmem k _) eqn:D; [|reflexivity]. apply dmem_In in D. unfold new_cells in D. rewrite dkeys_select in D. destruct (I k K D).
    + intros k K. unfold mapped_domain. rewrite dget_merge by now rewrite K'. assert (dget k (new_core n) = None) as ->; [|reflexivity]. apply dget_None. rewrite K'. now apply I.
Qed.

Lemma constraints_simplified q t cs : (forall n, q <> PrivateSource n) -> vis q = Ok (t, cs) -> simplify cs = cs.
Proof.
  intros N V. destruct q; try (exfalso; eapply N; reflexivity); cbn [visit] in V; try discriminate V;
    repeat (apply bind_ok in V as ([? ?] & _ & V));
    unfold visit_rename, visit_filter, visit_select, visit_map, visit_flat_map, visit_flat_map_by_id, visit_join_private, visit_join_public, visit_replace_null, visit_replace_inf, visit_drop_null, visit_drop_inf, visit_enforce in V;
    repeat match type of V with
           | bind _ _ = Ok _ => apply bind_ok in V as (? & _ & V)
           | (let '(_, _) := ?x in _) = Ok _ => destruct x
           | match ?x with _ => _ end = Ok _ => destruct x; try discriminate V
           end; try (injection V as <- <-; first [apply simplify_idem|reflexivity]).
Qed.
Lemma filter_join_private_alike l r on a ks : (forall n, l <> PrivateSource n) -> reads W a ks -> incl ks on ->
  computed (Filter (JoinPrivate l r None None (Some on)) a) -> computed (JoinPrivate (Filter l a) r None None (Some on)) ->
  alike (Filter (JoinPrivate l r None None (Some on)) a) (JoinPrivate (Filter l a) r None None (Some on)).
Proof.
  intros N R I C C'. apply equal_alike; [now apply (filter_op_schema (fun c => JoinPrivate c r None None (Some on)) (fun s => let* sr := sch r in join_private_schema s sr (Some on)) l a)|].
  cbn [visit]. destruct (vis l) as [[t cs]|e] eqn:V; [|reflexivity]. pose proof (constraints_simplified l t cs N V) as SI. cbn [bind visit_filter]. rewrite SI.
  destruct (vis r) as [[t' cs']|e]; [|reflexivity]. cbn [bind]. unfold visit_join_private. cbn [v_dom v_place v_rows v_coll join_columns].
  destruct (raise_if _ _) as [u|e]; [|reflexivity]. cbn [bind].
  destruct (v_place t) as [i| |g b i|g b]; [|destruct (v_place t'); reflexivity..]. destruct (v_place t') as [j| |g b j|g b]; try reflexivity.
  destruct (raise_if (negb (String.eqb i j)) _) as [u1|e]; [|reflexivity]. cbn [bind]. destruct (raise_if _ _) as [u2|e]; [|reflexivity]. cbn [bind].
  destruct (join_domain _ _ _ _) as [d|e]; [|reflexivity]. cbn [bind visit_filter v_dom v_place v_rows v_coll].
  rewrite simplify_idem. do 3 f_equal. apply filter_flat_comm. intros x x' J. apply R. intros k K. apply in_map_iff in J as (z & <- & _). now apply getv_joined, I.
Qed.

Lemma filter_inner_right on lc rc a ks (lr rr : table) : reads W a ks -> incl ks on ->
  filter (w_cond_holds W a) (inner_join on lc rc lr rr) = inner_join on lc rc lr (filter (w_cond_holds W a) rr).
Proof.
  intros R I. unfold inner_join. induction lr as [|x lr IH]; [reflexivity|]. cbn [flat_map]. rewrite filter_app, IH. f_equal. clear IH lr.
  induction rr as [|z rr IH]; [reflexivity|]. cbn [filter]. destruct (matches on x z) eqn:M.
  - assert (E : w_cond_holds W a (join_row on lc rc x (Some z)) = w_cond_holds W a z).
    { apply R. intros k K. apply I in K. rewrite getv_joined by exact K. unfold matches in M. rewrite forallb_forall in M. apply value_eqb_eq, M, K. }
    cbn [map filter]. rewrite E. destruct (w_cond_holds W a z); [|exact IH]. cbn [filter]. rewrite M. cbn [map]. f_equal. exact IH.
  - destruct (w_cond_holds W a z); [|exact IH]. cbn [filter]. rewrite M. exact IH.
Qed.
Lemma filter_join_private_right_alike l r on a ks : (forall n, r <> PrivateSource n) -> reads W a ks -> incl ks on ->
  computed (Filter (JoinPrivate l r None None (Some on)) a) -> computed (JoinPrivate l (Filter r a) None None (Some on)) ->
  alike (Filter (JoinPrivate l r None None (Some on)) a) (JoinPrivate l (Filter r a) None None (Some on)).
Proof.
  intros N R I (s & x & S & V0) (s' & x' & S' & V0'). apply equal_alike.
  - rewrite S, S'. cbn [schema_of] in S, S'. apply bind_ok in S as (s1 & S1 & S). apply bind_ok in S1 as (sl & SL & S1). apply bind_ok in S1 as (sr & SR & S1).
    apply bind_ok in S' as (sl' & SL' & S'). apply bind_ok in S' as (sr' & SR' & S'). apply bind_ok in SR' as (sr0 & SR0 & SR').
    apply filter_schema_is in S as (-> & _), SR' as (-> & _). congruence.
  - clear V0 V0' S S'. cbn [visit]. destruct (vis l) as [[t cs]|e]; [|reflexivity]. cbn [bind]. destruct (vis r) as [[t' cs']|e] eqn:V; [|reflexivity].
    pose proof (constraints_simplified r t' cs' N V) as SI. cbn [bind visit_filter]. rewrite SI. unfold visit_join_private. cbn [v_dom v_place v_rows v_coll join_columns].
    destruct (raise_if _ _) as [u|e]; [|reflexivity]. cbn [bind].
    destruct (v_place t) as [i| |g b i|g b]; [|destruct (v_place t'); reflexivity..]. destruct (v_place t') as [j| |g b j|g b]; try reflexivity.
    destruct (raise_if (negb (String.eqb i j)) _) as [u1|e]; [|reflexivity]. cbn [bind]. destruct (raise_if _ _) as [u2|e]; [|reflexivity]. cbn [bind].
    destruct (join_domain _ _ _ _) as [d|e]; [|reflexivity]. cbn [bind visit_filter v_dom v_place v_rows v_coll].
    rewrite simplify_idem. do 3 f_equal. now apply filter_inner_right with ks.
Qed.

Theorem law_alike q q' : law W q q' -> computed q -> computed q' -> alike q q'.
Proof.
  intros L C C'. destruct L.
  - now apply filters_alike.
  - now apply filter_twice_alike.
  - now apply filter_select_alike with ks.
  - now apply filter_rename_alike with ks.
  - now apply filter_map_alike with ks.
  - now apply filter_drop_null_alike.
  - now apply filter_drop_inf_alike.
  - now apply filter_replace_null_alike with ks.
  - now apply filter_replace_inf_alike with ks.
  - now apply filter_flat_map_alike with ks.
  - now apply filter_join_public_alike with ks.
  - now apply filter_join_private_alike with ks.
  - now apply filter_join_private_right_alike with ks.
  - now apply selects_alike.
  - now apply drop_nulls_alike.
  - now apply drop_null_set_alike.
  - now apply drop_infs_alike.
  - now apply drop_inf_set_alike.
  - now apply drop_null_inf_alike.
  - now apply replace_drop_null_alike.
  - now apply replace_drop_inf_alike.
  - now apply maps_alike.
  - now apply map_unused_alike.
  - now apply enforce_alike.
Qed.
End Laws.
