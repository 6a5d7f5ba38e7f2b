(** Facts about neighbouring relations. *)
From Coq Require Import String Bool Arith ZArith Lia Permutation List.
From Verif Require Import Prelude Value Rows Constraints ConstraintsSpec Schema SchemaProofs Query Transform Tables Neighboring NeighboringSpec.
Import ListNotations.
Local Open Scope string_scope.
Local Open Scope nat_scope.

(** ** Flattening *)

Lemma flatten_one_conj l : flatten_one (Conjunction l) = flatten l.
Proof. reflexivity. Qed.
Lemma flatten_flat_map l : flatten l = flat_map flatten_one l.
Proof. induction l as [|x l IH]; [reflexivity|]. cbn. now rewrite IH. Qed.
Section RelInd.
Variable P : relation -> Prop.
Hypothesis HR : forall t n, P (AddRemoveRows t n).
Hypothesis HG : forall t g k m, P (AddRemoveRowsAcrossGroups t g k m).
Hypothesis HK : forall s d n, P (AddRemoveKeys s d n).
Hypothesis HC : forall l, (forall r, In r l -> P r) -> P (Conjunction l).
Fixpoint relation_nested_ind (r : relation) : P r :=
  match r with
  | AddRemoveRows t n => HR t n
  | AddRemoveRowsAcrossGroups t g k m => HG t g k m
  | AddRemoveKeys s d n => HK s d n
  | Conjunction l => HC l ((fix go (l : list relation) : forall r, In r l -> P r :=
                              match l with
                              | [] => fun r H => match H with end
                              | x :: l => fun r H => match H with
                                                     | or_introl e => eq_ind x P (relation_nested_ind x) r e
                                                     | or_intror H => go l r H
                                                     end
                              end) l)
  end.
End RelInd.
Lemma flatten_one_part : forall r x, In x (flatten_one r) <-> part_of x r.
Proof.
  induction r as [| | |l IH] using relation_nested_ind; intros x.
  1-3: cbn; split; [intros [<-|[]]; apply part_self; cbn; tauto|intros H; inversion H; now left].
  rewrite flatten_one_conj, flatten_flat_map, in_flat_map. split.
  - intros (r & I & J). eapply part_nested; [exact I|]. now apply IH.
  - intros H. inversion H as [N|? r I J]; subst; [destruct N; exact Logic.I|]. exists r. split; [exact I|]. now apply IH.
Qed.
Lemma part_not_conj x r : part_of x r -> ~ is_conjunction x.
Proof. induction 1; auto. Qed.
Lemma flat_map_flat_map {A B C} (f : A -> list B) (g : B -> list C) l : flat_map g (flat_map f l) = flat_map (fun x => flat_map g (f x)) l.
Proof. induction l as [|x l IH]; [reflexivity|]. cbn. now rewrite flat_map_app, IH. Qed.
Lemma flatten_one_tables : forall r, flat_map tables_of (flatten_one r) = tables_of r.
Proof.
  induction r as [| | |l IH] using relation_nested_ind; try (cbn; now rewrite ?app_nil_r).
  rewrite flatten_one_conj, flatten_flat_map, flat_map_flat_map. cbn [tables_of].
  induction l as [|x l IL]; [reflexivity|]. cbn. rewrite IH by now left. f_equal. apply IL. intros r I. apply IH. now right.
Qed.
Lemma flatten_tables l : flat_map tables_of (flatten l) = flat_map tables_of l.
Proof. exact (flatten_one_tables (Conjunction l)). Qed.
Lemma flatten_id l : (forall r, In r l -> ~ is_conjunction r) -> flatten l = l.
Proof.
  induction l as [|x l IH]; intros H; [reflexivity|]. cbn. rewrite IH by (intros; apply H; now right).
  destruct x; try reflexivity. exfalso. exact (H _ (or_introl eq_refl) I).
Qed.
Lemma flatten_flat l : forall r, In r (flatten l) -> ~ is_conjunction r.
Proof. intros r H. rewrite <- flatten_one_conj in H. apply flatten_one_part in H. eapply part_not_conj, H. Qed.

(** ** Each table once *)

Fixpoint keys_distinct (r : relation) : Prop :=
  match r with
  | AddRemoveKeys _ d _ => NoDup (dkeys d)
  | Conjunction l => (fix go (l : list relation) : Prop := match l with [] => True | x :: l => keys_distinct x /\ go l end) l
  | _ => True
  end.
Lemma keys_distinct_conj l : keys_distinct (Conjunction l) <-> forall r, In r l -> keys_distinct r.
Proof.
  induction l as [|x l IH]; [cbn; split; [intros _ r []|tauto]|]. change (keys_distinct (Conjunction (x :: l))) with (keys_distinct x /\ keys_distinct (Conjunction l)). rewrite IH. split.
  - intros (A & B) r [<-|I]; auto.
  - intros H. split; [apply H; now left|intros; apply H; now right].
Qed.
Lemma validate_names dfs r names : validate_one dfs r = Ok names -> ~ is_conjunction r /\ names = tables_of r.
Proof.
  destruct r as [t n|t g k m|s d n|l]; cbn; intros H; [| | |discriminate].
  - destruct (dget t dfs); [|discriminate]. apply bind_ok in H as (? & _ & H). injection H as <-. tauto.
  - destruct (dget t dfs); [|discriminate]. apply bind_ok in H as (? & _ & H). apply bind_ok in H as (? & _ & H). apply bind_ok in H as (? & _ & H). injection H as <-. tauto.
  - apply bind_ok in H as (? & _ & H). apply bind_ok in H as (? & _ & H). injection H as <-. tauto.
Qed.
Lemma tables_nodup r : keys_distinct r -> ~ is_conjunction r -> NoDup (tables_of r).
Proof. destruct r; cbn; intros H N; [repeat constructor; intros []|repeat constructor; intros []|exact H|destruct N; exact Logic.I]. Qed.
Lemma nodup_append {A} (l l' : list A) : NoDup l -> NoDup l' -> (forall x, In x l -> ~ In x l') -> NoDup (l ++ l').
Proof.
  induction l as [|x l IH]; intros N N' D; [exact N'|]. inversion N; subst. cbn. constructor.
  - rewrite in_app_iff. intros [I|I]; [contradiction|]. exact (D x (or_introl eq_refl) I).
  - apply IH; auto. intros y I. apply D. now right.
Qed.
Lemma nodup_append_inv {A} (l l' : list A) : NoDup (l ++ l') -> NoDup l /\ NoDup l' /\ (forall x, In x l -> ~ In x l').
Proof.
  induction l as [|x l IH]; cbn; intros N; [split; [constructor|]; split; [exact N|intros ? []]|]. inversion N as [|? ? NA NB]; subst. destruct (IH NB) as (C & D & F). rewrite in_app_iff in NA.
  split; [constructor; tauto|]. split; [exact D|]. intros y [<-|I]; [tauto|apply F; exact I].
Qed.
Lemma covered_spec dfs : forall l covered out, covered_tables dfs l covered = Ok out ->
  out = (covered ++ flat_map tables_of l)%list
  /\ (forall r, In r l -> exists names, validate_one dfs r = Ok names)
  /\ ((forall r, In r l -> keys_distinct r) -> NoDup covered -> NoDup out).
Proof.
  induction l as [|r l IH]; cbn; intros covered out H.
  - injection H as <-. rewrite app_nil_r. split; [reflexivity|]. split; [intros ? []|auto].
  - apply bind_ok in H as (names & V & H). apply bind_ok in H as ([] & D & H). apply raise_if_ok in D.
    destruct (validate_names _ _ _ V) as (NC & ->). apply IH in H as (-> & H & N). rewrite <- app_assoc. split; [reflexivity|]. split.
    + intros x [<-|I]; [eauto|auto].
    + intros K NC'. rewrite app_assoc. apply N; [auto|]. apply nodup_append; [exact NC'|apply tables_nodup; auto|].
      intros x I J. apply Bool.not_true_iff_false in D. apply D. apply existsb_exists. exists x. split; [exact J|]. now apply smem_In.
Qed.
Lemma validate_conjunction l dfs : validate_input (Conjunction l) dfs = Ok tt ->
  (forall r, In r l -> exists names, validate_one dfs r = Ok names)
  /\ (forall n, In n (flat_map tables_of l) <-> In n (dkeys dfs))
  /\ ((forall r, In r l -> keys_distinct r) -> NoDup (flat_map tables_of l)).
Proof.
  unfold validate_input. intros H. apply bind_ok in H as (out & C & H). apply raise_if_ok in H. apply Bool.orb_false_iff in H as (A & B).
  apply covered_spec in C as (-> & V & N). split; [exact V|]. split; [|intros K; apply N; [exact K|constructor]]. cbn [app] in *. intros n. split; intros I.
  - apply Bool.not_true_iff_false in B. destruct (dmem n dfs) eqn:D; [now apply dmem_In|]. destruct B. apply existsb_exists. exists n. split; [exact I|]. now rewrite D.
  - apply Bool.not_true_iff_false in A. destruct (smem n (flat_map tables_of l)) eqn:D; [now apply smem_In|]. destruct A. apply existsb_exists. exists n. split; [exact I|]. now rewrite D.
Qed.
(** The other direction. *)
Lemma covered_ok dfs : forall l covered, (forall r, In r l -> exists names, validate_one dfs r = Ok names) ->
  NoDup (covered ++ flat_map tables_of l) -> covered_tables dfs l covered = Ok (covered ++ flat_map tables_of l)%list.
Proof.
  induction l as [|r l IH]; cbn; intros covered V N; [now rewrite app_nil_r|].
  destruct (V r (or_introl eq_refl)) as (names & E). rewrite E. destruct (validate_names _ _ _ E) as (_ & ->). cbn [bind].
  replace (existsb (fun n => smem n covered) (tables_of r)) with false.
  - cbn [raise_if bind]. rewrite app_assoc. rewrite app_assoc in N. apply IH; [auto|exact N].
  - symmetry. apply Bool.not_true_iff_false. intros H. apply existsb_exists in H as (x & I & S). apply smem_In in S.
    apply nodup_append_inv in N as (_ & _ & D). apply (D x S). apply in_app_iff. now left.
Qed.
Lemma validate_conjunction_ok l dfs : (forall r, In r l -> exists names, validate_one dfs r = Ok names) ->
  (forall n, In n (flat_map tables_of l) <-> In n (dkeys dfs)) -> NoDup (flat_map tables_of l) ->
  validate_input (Conjunction l) dfs = Ok tt.
Proof.
  intros V I N. unfold validate_input. rewrite covered_ok by assumption. cbn [app bind]. apply raise_if_ok. apply Bool.orb_false_iff. split.
  - apply Bool.not_true_iff_false. intros H. apply existsb_exists in H as (x & J & S). apply I, smem_In in J. now rewrite J in S.
  - apply Bool.not_true_iff_false. intros H. apply existsb_exists in H as (x & J & S). apply I, dmem_In in J. now rewrite J in S.
Qed.

(** ** Visiting *)

Lemma ident_eqb_eq a b : ident_eqb a b = true <-> a = b.
Proof.
  destruct a, b; cbn; try (split; intros; congruence); [rewrite String.eqb_eq|rewrite String.eqb_eq|rewrite Nat.eqb_eq]; split; intros; congruence.
Qed.
Lemma iput_new {A} k (a : A) d : ~ In k (ikeys d) -> iput k a d = (d ++ [(k, a)])%list.
Proof.
  induction d as [|(k', a') d IH]; intros N; [reflexivity|]. cbn. destruct (ident_eqb k k') eqn:E.
  - apply ident_eqb_eq in E. destruct N. now left.
  - rewrite IH; [reflexivity|]. intros I. apply N. now right.
Qed.
Definition child_output (l2 : bool) (dfs : dict sframe) (r : relation) : res (ident * (tree * distance)) :=
  let* k := relation_id r in let* x := visit_one l2 dfs r in Ok (k, x).
Lemma visit_children_distinct l2 dfs : forall l acc ids, mapM relation_id l = Ok ids -> NoDup (ikeys acc ++ ids) ->
  visit_children l2 dfs l acc = let* xs := mapM (child_output l2 dfs) l in Ok (acc ++ xs)%list.
Proof.
  induction l as [|r l IH]; cbn; intros acc ids H N; [now rewrite app_nil_r|].
  apply bind_ok in H as (k & K & H). apply bind_ok in H as (ks & KS & H). injection H as <-. unfold child_output at 1. rewrite K. cbn [bind].
  destruct (visit_one l2 dfs r) as [x|e]; [cbn [bind]|reflexivity].
  rewrite iput_new. 2:{ apply NoDup_remove_2 in N. intros I. apply N. apply in_app_iff. now left. }
  rewrite (IH _ ks KS).
  - destruct (mapM (child_output l2 dfs) l); cbn; [|reflexivity]. now rewrite <- app_assoc.
  - unfold ikeys in *. rewrite map_app, <- app_assoc. exact N.
Qed.

(** ** Relations of a list of protected changes *)

Definition row_relation (p : string * change) : list relation :=
  match snd p with
  | AddMaxRows n => [AddRemoveRows (fst p) n]
  | AddMaxRowsInMaxGroups g k m => [AddRemoveRowsAcrossGroups (fst p) g k m]
  | AddRowsWithID _ _ => []
  end.
Definition in_space (s : string) (p : string * change) : list (string * string) :=
  match snd p with AddRowsWithID c s' => if String.eqb s s' then [(fst p, c)] else [] | _ => [] end.
Lemma in_space_in s l n c : In (n, c) (flat_map (in_space s) l) <-> In (n, AddRowsWithID c s) l.
Proof.
  rewrite in_flat_map. split.
  - intros ((n', ch) & I & J). unfold in_space in J. cbn in J. destruct ch as [|?|c' s']; try destruct J. destruct (String.eqb_spec s s') as [->|]; [|destruct J]. destruct J as [J|[]]. injection J as <- <-. exact I.
  - intros I. exists (n, AddRowsWithID c s). split; [exact I|]. unfold in_space. cbn. rewrite String.eqb_refl. now left.
Qed.
Lemma in_space_keys s l n : In n (map fst (flat_map (in_space s) l)) -> In n (map fst l).
Proof. intros H. apply in_map_iff in H as ((n', c) & <- & I). apply in_space_in in I. apply in_map_iff. exists (n', AddRowsWithID c s). auto. Qed.
Lemma map_flat_map {A B C} (g : B -> C) (f : A -> list B) l : map g (flat_map f l) = flat_map (fun x => map g (f x)) l.
Proof. induction l as [|x l IH]; [reflexivity|]. cbn. now rewrite map_app, IH. Qed.
Lemma in_space_nodup s l : NoDup (map fst l) -> NoDup (map fst (flat_map (in_space s) l)).
Proof.
  induction l as [|(n, ch) l IH]; intros N; [constructor|]. inversion N; subst. cbn [flat_map]. rewrite map_app.
  apply nodup_append; [|apply IH; assumption|].
  - unfold in_space. destruct ch as [| |c s']; cbn; try constructor. destruct (String.eqb s s'); cbn; repeat constructor; intros [].
  - intros x I J. apply in_space_keys in J. unfold in_space in I. cbn in I. destruct ch as [| |c s']; try destruct I. destruct (String.eqb s s'); [|destruct I]. destruct I as [<-|[]]. contradiction.
Qed.

Definition spaces_of (l : list (string * change)) : dict (dict string) := snd (fold_left relation_step l ([], [])).
Lemma relation_fold l : NoDup (map fst l) ->
  let acc := fold_left relation_step l ([], []) in
  fst acc = flat_map row_relation l /\ NoDup (dkeys (snd acc))
  /\ (forall s d, dget s (snd acc) = Some d -> d = flat_map (in_space s) l)
  /\ (forall s, In s (dkeys (snd acc)) <-> exists n c, In (n, AddRowsWithID c s) l).
Proof.
  induction l as [|(n, ch) l IH] using rev_ind; intros N; cbn zeta.
  - cbn. split; [reflexivity|]. split; [constructor|]. split; [discriminate|]. intros s. split; [intros []|intros (n & c & [])].
  - rewrite map_app in N. cbn in N. pose proof N as N2. apply nodup_append_inv in N2 as (NL & _ & DJ).
    destruct (IH NL) as (A & B & C & D). rewrite fold_left_app. cbn [fold_left]. set (acc := fold_left relation_step l ([], [])) in *. clearbody acc.
    rewrite !flat_map_app. cbn [flat_map]. rewrite app_nil_r. unfold relation_step. cbn [fst snd].
    assert (NI : forall (P : dict string), (forall x, In x (dkeys P) -> In x (map fst l)) -> ~ In n (dkeys P)).
    { intros P H I. apply H in I. exact (DJ n I (or_introl eq_refl)). }
    destruct ch as [k|g k m|c s]; unfold row_relation at 2; cbn [fst snd].
    1,2: split; [now rewrite A|]; split; [exact B|]; split.
    1,3: intros s d H; apply C in H; rewrite flat_map_app; unfold in_space at 2; cbn; now rewrite app_nil_r.
    1,2: intros s; rewrite D; split; intros (x & y & I); exists x, y; [apply in_app_iff; now left|]; apply in_app_iff in I as [I|[I|[]]]; [exact I|discriminate].
    split; [now rewrite A, app_nil_r|]. split; [apply NoDup_dset, B|]. split.
    + intros s' d H. rewrite dget_dset in H. destruct (String.eqb_spec s s') as [<-|NE].
      * injection H as <-. rewrite flat_map_app. cbn [flat_map]. unfold in_space at 2. cbn [snd fst]. rewrite String.eqb_refl. rewrite app_nil_r.
        destruct (dget s (snd acc)) as [d|] eqn:G.
        -- rewrite (C _ _ G). rewrite dset_append; [reflexivity|]. apply NI. intros x. apply in_space_keys.
        -- assert (Z : flat_map (in_space s) l = []).
           { destruct (flat_map (in_space s) l) as [|(n', c') r] eqn:Z; [reflexivity|]. exfalso. apply dget_None in G. apply G, D. exists n', c'. apply in_space_in. rewrite Z. now left. }
           rewrite Z. reflexivity.
      * apply C in H as ->. rewrite flat_map_app. cbn [flat_map]. unfold in_space at 3. cbn [snd fst]. apply String.eqb_neq in NE. rewrite String.eqb_sym, NE. now rewrite !app_nil_r.
    + intros s'. rewrite dkeys_dset. assert (IFF : In s' (if smem s (dkeys (snd acc)) then dkeys (snd acc) else (dkeys (snd acc) ++ [s])%list) <-> s' = s \/ In s' (dkeys (snd acc))).
      { destruct (smem s (dkeys (snd acc))) eqn:M.
        - apply smem_In in M. split; [auto|intros [->|?]; auto].
        - rewrite in_app_iff. cbn. split; intros [?|?]; auto. destruct H as [->|[]]; auto. }
      rewrite IFF, D. split.
      * intros [->|(x & y & I)]; [exists n, c; apply in_app_iff; right; now left|exists x, y; apply in_app_iff; now left].
      * intros (x & y & I). apply in_app_iff in I as [I|[I|[]]]; [right; eauto|]. injection I as <- <- <-. now left.
Qed.
