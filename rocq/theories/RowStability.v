(** How far apart the results of table operations can be when their inputs are some rows
    apart. *)
From Coq Require Import String Bool Arith ZArith QArith Qcanon Lia Permutation List.
From Verif Require Import Prelude Value Rows Constraints ConstraintsSpec ConstraintsProofs Schema SchemaProofs Query Transform TransformAgree OperationsSpec OperationsProofs PropagateProofs QueryLike Blind BlindSpec Measure Distance StabilitySpec.
Import ListNotations.
Local Open Scope string_scope.
Local Open Scope nat_scope.

Lemma distance_self a : row_distance a a = 0. Proof. apply row_distance_same. reflexivity. Qed.
Lemma distance_cons x a : row_distance a (x :: a) <= 1.
Proof.
  pose proof (distance_common a [] [x]) as H. rewrite app_nil_r in H. cbn [length] in H.
  rewrite (row_distance_same_r a (x :: a) (a ++ [x])%list) by apply Permutation_cons_append. lia.
Qed.
Lemma distance_both x a b : row_distance (x :: a) (x :: b) <= row_distance a b.
Proof.
  destruct (distance_parts a b) as (c & a1 & b1 & P & Q & ->).
  rewrite (row_distance_same_l (x :: a) ((x :: c) ++ a1)%list) by (cbn [app]; now constructor).
  rewrite (row_distance_same_r _ (x :: b) ((x :: c) ++ b1)%list) by (cbn [app]; now constructor). apply distance_common.
Qed.
Lemma distance_zero a b : row_distance a b = 0 -> Permutation a b.
Proof.
  intros H. destruct (distance_parts a b) as (c & a1 & b1 & P & Q & E). rewrite E in H. destruct a1; [|cbn in H; lia]. destruct b1; [|cbn in H; lia].
  rewrite app_nil_r in *. etransitivity; [exact P|symmetry; exact Q].
Qed.

(** It is enough to look at one more row. *)
Lemma lipschitz (f : table -> table) k : (forall a b, Permutation a b -> Permutation (f a) (f b)) -> (forall x t, row_distance (f t) (f (x :: t)) <= k) ->
  forall a b, row_distance (f a) (f b) <= k * row_distance a b.
Proof.
  intros P H a b. assert (M : forall l c, row_distance (f c) (f (l ++ c)%list) <= k * length l).
  { induction l as [|x l IH]; intros c; cbn [app length]; [rewrite distance_self; lia|]. pose proof (row_distance_triangle (f c) (f (l ++ c)%list) (f (x :: l ++ c)%list)). pose proof (IH c). pose proof (H x (l ++ c)%list). nia. }
  destruct (distance_parts a b) as (c & a1 & b1 & PA & PB & ->).
  rewrite (row_distance_same_l _ (f (a1 ++ c)%list)) by (apply P; etransitivity; [exact PA|apply Permutation_app_comm]).
  rewrite (row_distance_same_r _ _ (f (b1 ++ c)%list)) by (apply P; etransitivity; [exact PB|apply Permutation_app_comm]).
  pose proof (row_distance_triangle (f (a1 ++ c)%list) (f c) (f (b1 ++ c)%list)) as T. pose proof (M a1 c) as M1. rewrite row_distance_sym in M1. pose proof (M b1 c). nia.
Qed.
Lemma distance_filter p a b : row_distance (filter p a) (filter p b) <= row_distance a b.
Proof.
  rewrite <- (Nat.mul_1_l (row_distance a b)). apply lipschitz; [intros; now apply Permutation_filter|]. intros x t. cbn [filter]. destruct (p x); [apply distance_cons|rewrite distance_self; lia].
Qed.
Lemma distance_append l t : row_distance t (l ++ t)%list <= length l.
Proof. rewrite (row_distance_same_r t (l ++ t)%list (t ++ l)%list) by apply Permutation_app_comm. pose proof (distance_common t [] l) as H. rewrite app_nil_r in H. exact H. Qed.
Lemma distance_flat_map (f : rec -> table) k a b : (forall r, length (f r) <= k) -> row_distance (flat_map f a) (flat_map f b) <= k * row_distance a b.
Proof.
  intros H. apply (lipschitz (flat_map f)); [intros; apply perm_flat_map; [reflexivity|assumption]|]. intros x t. cbn [flat_map]. pose proof (distance_append (f x) (flat_map f t)). pose proof (H x). lia.
Qed.

(** ** Truncation *)
Section Keep.
Context {K : Type} (eqd : forall a b : K, {a = b} + {a <> b}) (key : rec -> K) (m : nat).
Notation keep := (keep_first eqd key m).
Lemma keep_seen t : forall seen seen', (forall k, count_occ eqd seen k = count_occ eqd seen' k \/ m <= count_occ eqd seen k /\ m <= count_occ eqd seen' k) -> keep seen t = keep seen' t.
Proof.
  induction t as [|r t IH]; intros seen seen' H; cbn [keep_first]; [reflexivity|].
  assert (B : (count_occ eqd seen (key r) <? m) = (count_occ eqd seen' (key r) <? m)).
  { destruct (H (key r)) as [-> |(A & C)]; [reflexivity|]. apply Nat.ltb_ge in A, C. congruence. }
  rewrite B, (IH (key r :: seen) (key r :: seen')); [reflexivity|]. intros k. cbn [count_occ]. destruct (H k) as [E|(A & C)]; destruct (eqd (key r) k); [left; lia|left; lia|right; lia|right; lia].
Qed.
Lemma keep_more k t : forall seen, row_distance (keep (k :: seen) t) (keep seen t) <= 1.
Proof.
  induction t as [|r t IH]; intros seen; cbn [keep_first]; [rewrite distance_self; lia|]. cbn [count_occ]. destruct (eqd k (key r)) as [<-|N].
  - destruct (Nat.ltb_spec (count_occ eqd seen k) m) as [L|L].
    + destruct (Nat.ltb_spec (S (count_occ eqd seen k)) m) as [L2|L2].
      * eapply Nat.le_trans; [apply distance_both|]. apply IH.
      * assert (E : keep (k :: k :: seen) t = keep (k :: seen) t).
        { apply keep_seen. intros j. cbn [count_occ]. destruct (eqd k j) as [<-|]; [right; lia|left; reflexivity]. }
        rewrite E. apply distance_cons.
    + destruct (Nat.ltb_spec (S (count_occ eqd seen k)) m) as [L2|L2]; [lia|]. apply IH.
  - assert (E : keep (key r :: k :: seen) t = keep (k :: key r :: seen) t).
    { apply keep_seen. intros j. left. cbn [count_occ]. destruct (eqd (key r) j), (eqd k j); lia. }
    rewrite E. destruct (count_occ eqd seen (key r) <? m); [eapply Nat.le_trans; [apply distance_both|]|]; apply IH.
Qed.
Lemma keep_insert x l2 : forall l1 seen, row_distance (keep seen (l1 ++ l2)%list) (keep seen (l1 ++ x :: l2)%list) <= 2.
Proof.
  induction l1 as [|r l1 IH]; intros seen; cbn [app keep_first].
  - pose proof (keep_more (key x) l2 seen) as H. rewrite row_distance_sym in H. destruct (count_occ eqd seen (key x) <? m); [|lia].
    pose proof (row_distance_triangle (keep seen l2) (keep (key x :: seen) l2) (x :: keep (key x :: seen) l2)). pose proof (distance_cons x (keep (key x :: seen) l2)). lia.
  - destruct (count_occ eqd seen (key r) <? m); [eapply Nat.le_trans; [apply distance_both|]|]; apply IH.
Qed.
End Keep.
Lemma insert_split {A} (le : A -> A -> bool) x l : exists l1 l2, l = (l1 ++ l2)%list /\ insert le x l = (l1 ++ x :: l2)%list.
Proof.
  induction l as [|y l (l1 & l2 & E & F)]; cbn [insert]; [exists [], []; split; reflexivity|]. destruct (le x y); [exists [], (y :: l); split; reflexivity|].
  exists (y :: l1), l2. split; cbn [app]; congruence.
Qed.

Lemma matches_trans on x y z : matches on x y = true -> matches on y z = matches on x z.
Proof.
  intros H. apply matches_cells in H. destruct (matches on x z) eqn:E.
  - apply matches_cells in E. apply matches_cells. congruence.
  - destruct (matches on y z) eqn:F; [|reflexivity]. apply matches_cells in F. assert (T : matches on x z = true) by (apply matches_cells; congruence). congruence.
Qed.
Lemma matches_refl on x : matches on x x = true. Proof. apply matches_cells. reflexivity. Qed.
Lemma split_table (p : rec -> bool) t : Permutation t (filter p t ++ filter (fun r => negb (p r)) t)%list.
Proof.
  induction t as [|r t IH]; [constructor|]. cbn [filter]. destruct (p r); cbn [negb app]; [constructor; exact IH|]. etransitivity; [constructor; exact IH|apply Permutation_middle].
Qed.
Lemma unique_more on x t : row_distance (truncate_side rec_order DropNonUnique on t) (truncate_side rec_order DropNonUnique on (x :: t)) <= 1.
Proof.
  cbn [truncate_side]. set (G := filter (matches on x) t).
  assert (O : forall r, matches on x r = false -> filter (matches on r) (x :: t) = filter (matches on r) t) by (intros r H; cbn [filter]; rewrite matches_sym, H; reflexivity).
  assert (M : forall r s, matches on x r = true -> filter (matches on r) s = filter (matches on x) s) by (intros r s H; apply filter_ext; intros y; apply matches_trans, H).
  assert (A : filter (fun r => length (filter (matches on r) t) <=? 1) t
            = filter (fun r => if matches on x r then length G <=? 1 else length (filter (matches on r) t) <=? 1) t).
  { apply filter_ext. intros r. destruct (matches on x r) eqn:E; [unfold G; now rewrite (M r t E)|reflexivity]. }
  assert (B : filter (fun r => length (filter (matches on r) (x :: t)) <=? 1) t
            = filter (fun r => if matches on x r then length G <=? 0 else length (filter (matches on r) t) <=? 1) t).
  { apply filter_ext. intros r. destruct (matches on x r) eqn:E; [rewrite (M r _ E); cbn [filter]; rewrite matches_refl; reflexivity|rewrite (O r E); reflexivity]. }
  rewrite A. change (filter ?p (x :: t)) with (if p x then x :: filter p t else filter p t). cbv beta. rewrite B. cbn [filter]. rewrite matches_refl. fold G. cbn [length Nat.leb].
  destruct (length G) as [|[|n]] eqn:LG; cbn [Nat.leb].
  - assert (E : forall b, filter (fun r => if matches on x r then b else length (filter (matches on r) t) <=? 1) t = filter (fun r => length (filter (matches on r) t) <=? 1) (filter (fun r => negb (matches on x r)) t)).
    { intros b. rewrite filter_filter. apply filter_ext_in. intros r I. destruct (matches on x r) eqn:X; [|reflexivity]. assert (I2 : In r G) by (apply filter_In; auto). destruct G; [destruct I2|discriminate]. }
    rewrite !E. apply distance_cons.
  - rewrite (row_distance_same_l _ (filter (fun r => matches on x r) t ++ filter (fun r => if matches on x r then false else length (filter (matches on r) t) <=? 1) t)%list).
    + rewrite row_distance_sym. pose proof (distance_append (filter (fun r => matches on x r) t) (filter (fun r => if matches on x r then false else length (filter (matches on r) t) <=? 1) t)) as H. change (length (filter (fun r => matches on x r) t)) with (length G) in H. rewrite LG in H. exact H.
    + apply same_table_occurs. intros r. rewrite occurs_app, !occurs_filter. destruct (matches on x r); lia.
  - rewrite distance_self. lia.
Qed.
Lemma truncate_stable O s on a b : row_distance (truncate_side O s on a) (truncate_side O s on b) <= stability s * row_distance a b.
Proof.
  apply lipschitz; [intros; now apply truncate_side_like|]. intros x t. destruct s as [n|]; cbn [stability]; [|apply (unique_more on x t)].
  cbn [truncate_side isort fold_right]. fold (isort (ole O) t). destruct (insert_split (ole O) x (isort (ole O) t)) as (l1 & l2 & E & F). rewrite F, E. apply keep_insert.
Qed.
Lemma truncate_few O s on t x : length (filter (matches on x) (truncate_side O s on t)) <= threshold s.
Proof.
  destruct (truncate_spec O s on t) as (_ & H). rewrite (H (matches on x) (cells on x)).
  - destruct s as [n|]; cbn [number_kept threshold]; [lia|]. destruct (_ =? 1); lia.
  - intros r. rewrite matches_cells. unfold cells. split; congruence.
Qed.

(** ** Joins *)
Lemma swap_joined {A B C} (p : A -> B -> bool) (g : A -> B -> C) (l : list A) (r : list B) :
  Permutation (flat_map (fun x => map (fun y => g x y) (filter (p x) r)) l) (flat_map (fun y => map (fun x => g x y) (filter (fun x => p x y) l)) r).
Proof.
  induction l as [|x l IH]; cbn [flat_map filter].
  - induction r as [|y r IHr]; [constructor|exact IHr].
  - transitivity (map (fun y => g x y) (filter (p x) r) ++ flat_map (fun y => map (fun x => g x y) (filter (fun x => p x y) l)) r)%list; [apply Permutation_app_head, IH|]. clear IH.
    induction r as [|y r IH]; [constructor|]. cbn [filter flat_map]. destruct (p x y); cbn [map app].
    + constructor. rewrite app_assoc. transitivity (map (fun x0 => g x0 y) (filter (fun x0 => p x0 y) l) ++ (map (fun y0 => g x y0) (filter (p x) r) ++ flat_map (fun y0 => map (fun x0 => g x0 y0) (filter (fun x0 => p x0 y0) l)) r))%list.
      * rewrite !app_assoc. apply Permutation_app_tail, Permutation_app_comm.
      * apply Permutation_app_head, IH.
    + transitivity (map (fun x0 => g x0 y) (filter (fun x0 => p x0 y) l) ++ (map (fun y0 => g x y0) (filter (p x) r) ++ flat_map (fun y0 => map (fun x0 => g x0 y0) (filter (fun x0 => p x0 y0) l)) r))%list.
      * rewrite !app_assoc. apply Permutation_app_tail, Permutation_app_comm.
      * apply Permutation_app_head, IH.
Qed.
Lemma join_stable on lc rc l l' r r' tl tr : (forall x, length (filter (matches on x) r) <= tr) -> (forall x, length (filter (matches on x) l') <= tl) ->
  row_distance (inner_join on lc rc l r) (inner_join on lc rc l' r') <= tr * row_distance l l' + tl * row_distance r r'.
Proof.
  intros HR HL. pose proof (row_distance_triangle (inner_join on lc rc l r) (inner_join on lc rc l' r) (inner_join on lc rc l' r')) as T.
  assert (A : row_distance (inner_join on lc rc l r) (inner_join on lc rc l' r) <= tr * row_distance l l') by (apply distance_flat_map; intros x; rewrite map_length; apply HR).
  assert (B : row_distance (inner_join on lc rc l' r) (inner_join on lc rc l' r') <= tl * row_distance r r').
  { unfold inner_join. rewrite (row_distance_same_l _ _ _ (swap_joined (matches on) (fun x y => join_row on lc rc x (Some y)) l' r)), (row_distance_same_r _ _ _ (swap_joined (matches on) (fun x y => join_row on lc rc x (Some y)) l' r')).
    apply distance_flat_map. intros y. rewrite map_length. rewrite (filter_ext _ (matches on y)) by (intros x; apply matches_sym). apply HL. }
  lia.
Qed.
Lemma private_join_stable O sl sr on lc rc l l' r r' :
  row_distance (inner_join on lc rc (truncate_side O sl on l) (truncate_side O sr on r)) (inner_join on lc rc (truncate_side O sl on l') (truncate_side O sr on r'))
  <= threshold sr * stability sl * row_distance l l' + threshold sl * stability sr * row_distance r r'.
Proof.
  eapply Nat.le_trans; [apply join_stable; intros x; apply truncate_few|]. pose proof (truncate_stable O sl on l l'). pose proof (truncate_stable O sr on r r'). nia.
Qed.

(** ** Queries *)
Lemma at_most_matches m on t x : at_most m on t -> length (filter (matches on x) t) <= m.
Proof. intros H. apply (H (matches on x) (cells on x)). intros r. rewrite matches_cells. unfold cells. split; congruence. Qed.
Lemma joins_on_spec on (l r : dict coredesc) rc : (forall c, In c (dkeys r) <-> In c rc) -> joins_on on (dkeys l) rc (join_columns on l r).
Proof.
  intros Er. unfold joins_on, join_columns. destruct on as [c|]; [reflexivity|]. intros c. unfold common_columns. rewrite filter_In, dmem_In, Er. reflexivity.
Qed.

Section Queries.
Variables (W : world) (l2 : bool) (cat : catalog) (data data' : dict vtab) (d : string -> nat).
Hypothesis SAME : hide_all data = hide_all data'.
Hypothesis APART : forall n t t', dget n data = Some t -> dget n data' = Some t' -> row_distance (v_rows t) (v_rows t') <= d n.

Lemma visit_hidden q t cs t' cs' : visit W l2 cat data q = Ok (t, cs) -> visit W l2 cat data' q = Ok (t', cs') -> hide t = hide t' /\ cs = cs'.
Proof.
  intros V V'. pose proof (visit_hide W l2 cat data q) as H. pose proof (visit_hide W l2 cat data' q) as H'. rewrite SAME, H', V, V' in H. cbn [rmap] in H. unfold hide2 in H. cbn [fst snd] in H.
  assert (E : (hide t', cs') = (hide t, cs)) by congruence. split; congruence.
Qed.
Lemma hide_eqs t t' : hide t = hide t' -> v_dom t = v_dom t' /\ v_coll t = v_coll t' /\ v_place t = v_place t'.
Proof. intros H. unfold hide in H. injection H. auto. Qed.
Ltac two := repeat match goal with
  | H : bind _ _ = Ok _ |- _ => apply bind_ok in H; let x := fresh "x" in let E := fresh "E" in destruct H as (x & E & H)
  end.
(** Where the tables are. *)
Lemma place_kept q k : spread W l2 cat data d q k -> forall t cs, visit W l2 cat data q = Ok (t, cs) -> in_collection (v_place t) = false.
Proof.
  intros S. induction S as [n t0 G NC|c m k S IH|c cond k S IH|c cols k S IH|c f new aug k S IH|c f new aug z k S IH|l r sl sr on kl kr SL IHL SR IHR|c p on how k m f S IH PF HL AM|c rw k S IH|c rw k S IH|c cols k S IH|c cols k S IH]; intros t cs V; cbn [visit] in V.
  - unfold visit_source in V. rewrite G in V. destruct (dget n (cat_private cat)) as [(s, cs0)|]; [|discriminate V]. injection V as <- <-. exact NC.
  - apply bind_ok in V as ((u, us) & E & V). unfold visit_rename in V. two. injection V as <- <-. cbn [v_place]. specialize (IH _ _ E). destruct (v_place u); [discriminate IH|reflexivity..].
  - apply bind_ok in V as ((u, us) & E & V). unfold visit_filter in V. injection V as <- <-. exact (IH _ _ E).
  - apply bind_ok in V as ((u, us) & E & V). unfold visit_select in V. two. injection V as <- <-. exact (IH _ _ E).
  - apply bind_ok in V as ((u, us) & E & V). unfold visit_map in V. two. injection V as <- <-. exact (IH _ _ E).
  - apply bind_ok in V as ((u, us) & E & V). unfold visit_flat_map in V. pose proof (IH _ _ E) as P. rewrite P in V. apply bind_ok in V as ((pl, lim) & EP & V). two. injection V as <- <-. cbn [v_place fst].
    destruct (sc_group new) as [g|]; [destruct (v_place u); try discriminate EP|]; injection EP as <- <-; [reflexivity|exact P].
  - apply bind_ok in V as ((u, us) & E & V). apply bind_ok in V as ((w, ws) & E' & V). unfold visit_join_private in V. pose proof (IHL _ _ E) as P. apply bind_ok in V as (x & _ & V). apply bind_ok in V as (((pl, a), b) & Z & V). two. injection V as <- <-. cbn [v_place].
    destruct (v_place u); [discriminate P| |discriminate Z..]. destruct (v_place w); try discriminate Z. injection Z as <- <- <-. reflexivity.
  - apply bind_ok in V as ((u, us) & E & V). unfold visit_join_public in V. two. injection V as <- <-. exact (IH _ _ E).
  - apply bind_ok in V as ((u, us) & E & V). unfold visit_replace_null in V. two. injection V as <- <-. exact (IH _ _ E).
  - apply bind_ok in V as ((u, us) & E & V). unfold visit_replace_inf in V. two. injection V as <- <-. exact (IH _ _ E).
  - apply bind_ok in V as ((u, us) & E & V). unfold visit_drop_null in V. two. injection V as <- <-. exact (IH _ _ E).
  - apply bind_ok in V as ((u, us) & E & V). unfold visit_drop_inf in V. two. injection V as <- <-. exact (IH _ _ E).
Qed.
Lemma visit_stable q k : spread W l2 cat data d q k -> forall t cs t' cs', visit W l2 cat data q = Ok (t, cs) -> visit W l2 cat data' q = Ok (t', cs') ->
  row_distance (v_rows t) (v_rows t') <= k.
Proof.
  intros S. induction S as [n t0 G NC|c m k S IH|c cond k S IH|c cols k S IH|c f new aug k S IH|c f new aug z k S IH|l r sl sr on kl kr SL IHL SR IHR|c p on how k m f S IH PF HL AM|c rw k S IH|c rw k S IH|c cols k S IH|c cols k S IH];
    intros t cs t' cs' V V'; cbn [visit] in V, V'.
  - unfold visit_source in V, V'. destruct (dget n data) eqn:G1; [|discriminate V]. destruct (dget n data') eqn:G2; [|discriminate V']. destruct (dget n (cat_private cat)) as [(s, cs0)|]; [|discriminate V]. injection V as <- <-. injection V' as <- <-. eapply APART; eassumption.
  - apply bind_ok in V as ((u, us) & E & V). apply bind_ok in V' as ((u', us') & E' & V'). unfold visit_rename in V, V'. two. injection V as <- <-. injection V' as <- <-. cbn [v_rows]. eapply Nat.le_trans; [apply distance_map|]. eapply IH; eassumption.
  - apply bind_ok in V as ((u, us) & E & V). apply bind_ok in V' as ((u', us') & E' & V'). unfold visit_filter in V, V'. injection V as <- <-. injection V' as <- <-. cbn [v_rows]. eapply Nat.le_trans; [apply distance_filter|]. eapply IH; eassumption.
  - apply bind_ok in V as ((u, us) & E & V). apply bind_ok in V' as ((u', us') & E' & V'). unfold visit_select in V, V'. two. injection V as <- <-. injection V' as <- <-. cbn [v_rows]. eapply Nat.le_trans; [apply distance_map|]. eapply IH; eassumption.
  - apply bind_ok in V as ((u, us) & E & V). apply bind_ok in V' as ((u', us') & E' & V'). unfold visit_map in V, V'. two. injection V as <- <-. injection V' as <- <-. cbn [v_rows]. eapply Nat.le_trans; [apply distance_map|]. eapply IH; eassumption.
  - apply bind_ok in V as ((u, us) & E & V). apply bind_ok in V' as ((u', us') & E' & V'). pose proof (visit_hidden _ _ _ _ _ E E') as (HU & _). apply hide_eqs in HU as (_ & _ & HP).
    unfold visit_flat_map in V, V'. rewrite <- HP, (place_kept _ _ S _ _ E) in *.
    apply bind_ok in V as ((pl, lim) & EP & V). apply bind_ok in V' as ((pl', lim') & EP' & V'). rewrite EP in EP'. assert (EQ : (pl, lim) = (pl', lim')) by congruence. apply (f_equal snd) in EQ. cbn [snd] in EQ. subst lim'.
    assert (LIM : lim = Some (Z.to_nat z)) by (destruct (sc_group new); [destruct (v_place u); try discriminate EP|]; congruence). subst lim. clear EP EP'. two. injection V as <- <-. injection V' as <- <-. cbn [v_rows snd].
    eapply Nat.le_trans; [apply (distance_flat_map _ (Z.to_nat z))|].
    + intros r. unfold flat_map_row. rewrite map_length. apply firstn_le_length.
    + apply Nat.mul_le_mono_l. eapply IH; eassumption.
  - apply bind_ok in V as ((u, us) & E & V). apply bind_ok in V as ((w, ws) & F & V). apply bind_ok in V' as ((u', us') & E' & V'). apply bind_ok in V' as ((w', ws') & F' & V').
    pose proof (visit_hidden _ _ _ _ _ E E') as (HU & _). apply hide_eqs in HU as (HD & HC & HP). pose proof (visit_hidden _ _ _ _ _ F F') as (HW & _). apply hide_eqs in HW as (KD & KC & KP).
    unfold visit_join_private in V, V'. rewrite <- HP, <- KP, <- HD, <- KD, <- HC, <- KC in V'. pose proof (place_kept _ _ SL _ _ E) as P.
    apply bind_ok in V as (x & _ & V). apply bind_ok in V' as (x' & _ & V'). apply bind_ok in V as (((pl, a), b) & Z & V). apply bind_ok in V' as (((pl', a'), b') & Z' & V'). two. injection V as <- <-. injection V' as <- <-. cbn [v_rows].
    destruct (v_place u); [discriminate P| |discriminate Z..]. destruct (v_place w); try discriminate Z. injection Z as <- <- <-. injection Z' as <- <- <-.
    eapply Nat.le_trans; [apply private_join_stable|]. pose proof (IHL _ _ _ _ E E'). pose proof (IHR _ _ _ _ F F'). apply Nat.add_le_mono; apply Nat.mul_le_mono_l; assumption.
  - apply bind_ok in V as ((u, us) & E & V). apply bind_ok in V' as ((u', us') & E' & V'). pose proof (visit_hidden _ _ _ _ _ E E') as (HU & _). apply hide_eqs in HU as (HD & _ & HP).
    pose proof (place_kept _ _ S _ _ E) as NC. unfold visit_join_public in V, V'. rewrite PF in V, V'. cbn [bind] in V, V'. rewrite <- HD, <- HP, NC in V'. rewrite NC in V.
    apply bind_ok in V as (pd & EP & V). rewrite EP in V'. cbn [bind] in V'. apply bind_ok in V as (ps & ES & V). rewrite ES in V'. cbn [bind] in V'. apply mk_schema_ok in ES as (_ & _ & _ & ->).
    set (dom := analytics_to_core _) in *. set (cols := join_columns on (v_dom u) dom) in *. two. injection V as <- <-. injection V' as <- <-. cbn [v_rows negb andb].
    assert (M : forall x, length (filter (matches cols x) (frame_rows f)) <= m).
    { intros rr. apply at_most_matches, (AM _ _ _ E). apply joins_on_spec. intros c0. unfold dom. rewrite analytics_to_core_cols, dkeys_core_cols. cbn [sc_cols]. apply spark_columns_names, EP. }
    eapply Nat.le_trans; [|apply Nat.mul_le_mono_l; eapply IH; eassumption].
    destruct (String.eqb_spec how "left") as [HE|HE].
    + apply distance_flat_map. intros rr. pose proof (M rr) as MX. specialize (HL HE). destruct (filter (matches cols rr) (frame_rows f)); cbn [length]; [lia|]. rewrite map_length. exact MX.
    + apply distance_flat_map. intros rr. rewrite map_length. apply M.
  - apply bind_ok in V as ((u, us) & E & V). apply bind_ok in V' as ((u', us') & E' & V'). pose proof (visit_hidden _ _ _ _ _ E E') as (HU & _). apply hide_eqs in HU as (HD & _ & HP).
    unfold visit_replace_null in V, V'. rewrite <- HD, <- HP in V'. apply bind_ok in V as (y & _ & V). apply bind_ok in V' as (y' & _ & V'). apply bind_ok in V as (an & EA & V). rewrite EA in V'. cbn [bind] in V'. apply bind_ok in V as (rm & ER & V). rewrite ER in V'. cbn [bind] in V'. injection V as <- <-. injection V' as <- <-. cbn [v_rows].
    eapply Nat.le_trans; [apply distance_map|]. eapply IH; eassumption.
  - apply bind_ok in V as ((u, us) & E & V). apply bind_ok in V' as ((u', us') & E' & V'). pose proof (visit_hidden _ _ _ _ _ E E') as (HU & _). apply hide_eqs in HU as (HD & _ & HP).
    unfold visit_replace_inf in V, V'. rewrite <- HD in V'. apply bind_ok in V as (an & EA & V). rewrite EA in V'. cbn [bind] in V'. two. injection V as <- <-. injection V' as <- <-. cbn [v_rows].
    eapply Nat.le_trans; [apply distance_map|]. eapply IH; eassumption.
  - apply bind_ok in V as ((u, us) & E & V). apply bind_ok in V' as ((u', us') & E' & V'). pose proof (visit_hidden _ _ _ _ _ E E') as (HU & _). apply hide_eqs in HU as (HD & _ & HP).
    unfold visit_drop_null in V, V'. rewrite <- HD, <- HP in V'. apply bind_ok in V as (an & EA & V). rewrite EA in V'. cbn [bind] in V'. two. injection V as <- <-. injection V' as <- <-. cbn [v_rows]. unfold drop_rows.
    eapply Nat.le_trans; [apply distance_filter|]. eapply Nat.le_trans; [apply distance_filter|]. eapply IH; eassumption.
  - apply bind_ok in V as ((u, us) & E & V). apply bind_ok in V' as ((u', us') & E' & V'). pose proof (visit_hidden _ _ _ _ _ E E') as (HU & _). apply hide_eqs in HU as (HD & _ & HP).
    unfold visit_drop_inf in V, V'. rewrite <- HD in V'. apply bind_ok in V as (an & EA & V). rewrite EA in V'. cbn [bind] in V'. apply bind_ok in V as (y & _ & V). apply bind_ok in V' as (y' & _ & V'). apply bind_ok in V as (cl & EC & V). rewrite EC in V'. cbn [bind] in V'. injection V as <- <-. injection V' as <- <-. cbn [v_rows]. unfold drop_rows.
    eapply Nat.le_trans; [apply distance_filter|]. eapply IH; eassumption.
Qed.
End Queries.
