(** Lookup in nested collections. *)
From Coq Require Import String Bool Arith ZArith Lia Permutation List.
From Verif Require Import Prelude Value Rows Constraints Schema Query Transform Tables.
Import ListNotations.
Local Open Scope string_scope.
Local Open Scope nat_scope.

(** ** Specification *)

(** Following the keys [r] from [d] leads to [x]. *)
Inductive reaches : domain -> ref -> domain -> Prop :=
| Here d : reaches d [] d
| Below kids k d r x : In (k, d) kids -> reaches d r x -> reaches (DDict kids) (k :: r) x.
(** No dictionary has the same key twice. *)
Inductive distinct_keys : domain -> Prop :=
| LeafDistinct cols : distinct_keys (DFrame cols)
| DictDistinct kids : NoDup (ikeys kids) -> (forall k d, In (k, d) kids -> distinct_keys d) -> distinct_keys (DDict kids).
(** The reference is one of a table called [name]. *)
Definition called (name : string) (r : ref) : Prop := exists p, r = (p ++ [NamedTable name])%list.
(** At most one part of the data has the name. *)
Definition unambiguous (name : string) (d : domain) : Prop :=
  forall r r' x x', reaches d r x -> reaches d r' x' -> called name r -> called name r' -> r = r'.
(** The metric of the table at [r]. *)
Inductive measured_by : metric -> ref -> place -> Prop :=
| ByTable p : measured_by (MTable p) [] p
| ByDict kids k m r p : In (k, m) kids -> measured_by m r p -> measured_by (MDict kids) (k :: r) p
| ByKeys keys k c : In (k, c) keys -> measured_by (MKeys keys) [k] (PKeys c).
(** A metric for a domain. *)
Inductive suits : domain -> metric -> Prop :=
| SuitsTable cols p : suits (DFrame cols) (MTable p)
| SuitsDict kids ms : ikeys ms = ikeys kids ->
    (forall k d m, In (k, d) kids -> In (k, m) ms -> suits d m) -> suits (DDict kids) (MDict ms)
| SuitsKeys kids keys : ikeys keys = ikeys kids -> (forall k d, In (k, d) kids -> exists cols, d = DFrame cols) ->
    suits (DDict kids) (MKeys keys).

(** ** Proofs *)

Lemma ident_eqb_eq a b : ident_eqb a b = true <-> a = b.
Proof.
  destruct a, b; cbn; try (split; [discriminate|intros [=]]).
  - rewrite String.eqb_eq. split; [intros ->; reflexivity|intros [= ->]; reflexivity].
  - rewrite String.eqb_eq. split; [intros ->; reflexivity|intros [= ->]; reflexivity].
  - rewrite Nat.eqb_eq. split; [intros ->; reflexivity|intros [= ->]; reflexivity].
Qed.
Lemma ident_eqb_refl a : ident_eqb a a = true. Proof. now apply ident_eqb_eq. Qed.
Lemma ident_eqb_neq a b : ident_eqb a b = false <-> a <> b.
Proof. rewrite <- ident_eqb_eq. destruct (ident_eqb a b); split; congruence. Qed.
Lemma iget_in {A} k (a : A) d : iget k d = Some a -> In (k, a) d.
Proof.
  induction d as [|(k', a') d IH]; [discriminate|]. cbn. destruct (ident_eqb k k') eqn:E; [|right; auto].
  apply ident_eqb_eq in E as ->. intros [= ->]. now left.
Qed.
Lemma in_iget {A} k (a : A) d : NoDup (ikeys d) -> In (k, a) d -> iget k d = Some a.
Proof.
  induction d as [|(k', a') d IH]; [intros _ []|]. cbn. intros N [E|I].
  - injection E as -> ->. now rewrite ident_eqb_refl.
  - inversion N as [|? ? N1 N2]; subst. destruct (ident_eqb k k') eqn:E; [|auto].
    apply ident_eqb_eq in E as ->. exfalso. apply N1. now apply (in_map fst) in I.
Qed.
Lemma iget_none {A} k (d : list (ident * A)) : iget k d = None <-> ~ In k (ikeys d).
Proof.
  induction d as [|(k', a') d IH]; [cbn; tauto|]. cbn. destruct (ident_eqb k k') eqn:E.
  - apply ident_eqb_eq in E as ->. split; [discriminate|intros H; exfalso; apply H; now left].
  - apply ident_eqb_neq in E. rewrite IH. unfold ikeys. intuition congruence.
Qed.
Lemma iget_map {A B} (f : A -> B) k d : iget k (map (fun p => (fst p, f (snd p))) d) = option_map f (iget k d).
Proof. induction d as [|(k', a) d IH]; [reflexivity|]. cbn. destruct (ident_eqb k k'); [reflexivity|exact IH]. Qed.
Lemma ikeys_map {A B} (f : A -> B) (d : list (ident * A)) : ikeys (map (fun p => (fst p, f (snd p))) d) = ikeys d.
Proof. unfold ikeys. rewrite map_map. reflexivity. Qed.

Fixpoint domain_ind' (P : domain -> Prop) (HF : forall c, P (DFrame c))
  (HD : forall kids, (forall k d, In (k, d) kids -> P d) -> P (DDict kids)) (d : domain) : P d.
Proof.
  destruct d as [c|kids]; [apply HF|]. apply HD. induction kids as [|(k, d) kids IH]; [intros ? ? []|].
  intros k' d' [E|I]; [|exact (IH k' d' I)]. injection E as _ <-. apply domain_ind'; assumption.
Defined.

Lemma lookup_reaches d r x : lookup_domain d r = Ok x -> reaches d r x.
Proof.
  revert d. induction r as [|k r IH]; intros d H; cbn in H; [injection H as <-; constructor|].
  destruct d as [c|kids]; [discriminate|]. destruct (iget k kids) as [y|] eqn:E; [|discriminate].
  econstructor; [apply iget_in; exact E|auto].
Qed.
Lemma reaches_lookup d r x : distinct_keys d -> reaches d r x -> lookup_domain d r = Ok x.
Proof.
  intros D H. induction H as [d|kids k d r x I H IH]; [reflexivity|]. inversion D as [|? N K]; subst. cbn.
  rewrite (in_iget _ _ _ N I). apply IH. eapply K; eassumption.
Qed.
Lemma reaches_app d r x r' y : reaches d r x -> reaches x r' y -> reaches d (r ++ r')%list y.
Proof. intros H. induction H as [d|kids k d r x I H IH]; intros H'; [exact H'|]. cbn. econstructor; [exact I|auto]. Qed.
Lemma reaches_app_inv r : forall d r' y, reaches d (r ++ r')%list y -> exists x, reaches d r x /\ reaches x r' y.
Proof.
  induction r as [|k r IH]; intros d r' y H; [exists d; split; [constructor|exact H]|].
  cbn in H. inversion H as [|kids k0 d0 r0 x0 I H']; subst. destruct (IH _ _ _ H') as (x & A & B).
  exists x. split; [econstructor; eassumption|exact B].
Qed.
Lemma reaches_distinct d r x : distinct_keys d -> reaches d r x -> distinct_keys x.
Proof. intros D H. induction H as [d|kids k d r x I H IH]; [exact D|]. inversion D; subst. eauto. Qed.

(** find_reference *)
Lemma find_reference_some name : forall d r, find_reference name d = Some r -> called name r /\ exists x, reaches d r x.
Proof.
  apply (domain_ind' (fun d => forall r, find_reference name d = Some r -> called name r /\ exists x, reaches d r x)).
  - discriminate.
  - intros kids IH r. cbn [find_reference]. induction kids as [|(k, d) kids IHk]; [discriminate|].
    destruct (ident_eqb k (NamedTable name)) eqn:E.
    + intros [= <-]. apply ident_eqb_eq in E as ->. split; [exists []; reflexivity|]. exists d. econstructor; [left; reflexivity|constructor].
    + destruct (find_reference name d) as [r'|] eqn:F.
      * intros [= <-]. destruct (IH k d (or_introl eq_refl) r' F) as ((p & ->) & (x & R)).
        split; [exists (k :: p); reflexivity|]. exists x. econstructor; [left; reflexivity|exact R].
      * intros H. destruct (IHk (fun k' d' I => IH k' d' (or_intror I)) H) as (C & (x & R)). split; [exact C|]. exists x.
        inversion R; subst.
        -- destruct C as (p & C). destruct p; discriminate C.
        -- econstructor; [right; eassumption|assumption].
Qed.
Lemma find_reference_none name : forall d, find_reference name d = None -> forall r x, called name r -> ~ reaches d r x.
Proof.
  apply (domain_ind' (fun d => find_reference name d = None -> forall r x, called name r -> ~ reaches d r x)).
  - intros c _ r x (p & ->) H. inversion H; subst. destruct p; discriminate.
  - intros kids IH F r x C H. inversion H as [d E1 E2 E3|kids0 k d r0 x0 I H']; subst.
    + destruct C as (p & C). destruct p; discriminate C.
    + cbn [find_reference] in F. revert F.
      assert (X : forall l, In (k, d) l -> (forall k d, In (k, d) l -> In (k, d) kids) ->
        (fix go (kids : list (ident * domain)) : option ref :=
         match kids with
         | [] => None
         | (k, d) :: kids => if ident_eqb k (NamedTable name) then Some [k]
             else match find_reference name d with Some r => Some (k :: r) | None => go kids end
         end) l <> None).
      { induction l as [|(k1, d1) l IHl]; [intros []|]. intros J SUB. destruct (ident_eqb k1 (NamedTable name)) eqn:E; [discriminate|].
        destruct (find_reference name d1) as [r1|] eqn:F1; [discriminate|]. destruct J as [J|J].
        - injection J as -> ->. exfalso. destruct C as ([|k0 p] & C); cbn in C.
          + injection C as -> ->. now rewrite ident_eqb_refl in E.
          + injection C as -> ->. eapply (IH k0 d I F1 (p ++ [NamedTable name])%list x); [exists p; reflexivity|exact H'].
        - apply IHl; [exact J|]. intros k' d' I'. apply SUB. now right. }
      intros F. apply (X kids); auto.
Qed.
Lemma find_reference_iff name d r x : distinct_keys d -> unambiguous name d -> reaches d r x -> called name r ->
  find_reference name d = Some r.
Proof.
  intros D U R C. destruct (find_reference name d) as [r'|] eqn:F.
  - destruct (find_reference_some _ _ _ F) as (C' & (x' & R')). f_equal. exact (U _ _ _ _ R' R C' C).
  - exfalso. exact (find_reference_none _ _ F r x C R).
Qed.

(** lookup_metric *)
Lemma measured_lookup d m : suits d m -> distinct_keys d -> forall r cols, reaches d r (DFrame cols) ->
  exists p, lookup_metric m r = Ok (MTable p) /\ measured_by m r p.
Proof.
  intros SU D r cols R. remember (DFrame cols) as x eqn:Ex. revert m SU D Ex.
  induction R as [d|kids k d r x I R IH]; intros m SU D ->.
  - inversion SU; subst. exists p. split; [reflexivity|constructor].
  - inversion D as [|? N K]; subst. inversion SU as [|? ms EK HK|? keys EK HK]; subst.
    + assert (In k (ikeys ms)) as J by (rewrite EK; now apply (in_map fst) in I). apply in_map_iff in J as ((k', m) & E & J). cbn in E. subst k'.
      assert (NoDup (ikeys ms)) as N' by (rewrite EK; exact N). destruct (IH m (HK _ _ _ I J) (K _ _ I) eq_refl) as (p & L & M).
      exists p. split; [cbn; rewrite (in_iget _ _ _ N' J); exact L|econstructor; eassumption].
    + destruct (HK _ _ I) as (cols' & ->). inversion R; subst.
      assert (In k (ikeys keys)) as J by (rewrite EK; now apply (in_map fst) in I). apply in_map_iff in J as ((k', c) & E & J). cbn in E. subst k'.
      assert (NoDup (ikeys keys)) as N' by (rewrite EK; exact N). exists (PKeys c). split; [cbn; now rewrite (in_iget _ _ _ N' J)|now constructor].
Qed.
Lemma measured_det m : forall d, suits d m -> distinct_keys d -> forall r p, measured_by m r p -> lookup_metric m r = Ok (MTable p).
Proof.
  intros d SU D r p M. revert d SU D. induction M as [p|kids k m r p I M IH|keys k c I]; intros d SU D.
  - reflexivity.
  - inversion SU as [|kd ? EK HK|]; subst. inversion D as [|? N K]; subst. assert (NoDup (ikeys kids)) as N' by (rewrite EK; exact N).
    cbn. rewrite (in_iget _ _ _ N' I). assert (In k (ikeys kd)) as J by (rewrite <- EK; now apply (in_map fst) in I).
    apply in_map_iff in J as ((k', d) & E & J). cbn in E. subst k'. exact (IH d (HK _ _ _ J I) (K _ _ J)).
  - inversion SU as [| |kd ? EK HK]; subst. inversion D as [|? N K]; subst. assert (NoDup (ikeys keys)) as N' by (rewrite EK; exact N).
    cbn. now rewrite (in_iget _ _ _ N' I).
Qed.

(** find_named_tables: all leaves below a reference, in the order of the loop. *)
Fixpoint leaves (r : ref) (d : domain) : list ref :=
  match d with
  | DFrame _ => [r]
  | DDict kids => concat (rev (map (fun p => leaves (r ++ [fst p])%list (snd p)) kids))
  end.
Lemma leaves_dict r kids : leaves r (DDict kids) = flat_map (fun p => leaves (r ++ [fst p])%list (snd p)) (rev kids).
Proof. cbn [leaves]. now rewrite flat_map_concat_map, map_rev. Qed.
Lemma named_loop_leaves root : distinct_keys root -> forall fuel pending acc (ds : list domain),
  Forall2 (fun r d => reaches root r d) pending ds -> list_sum (map nodes ds) <= fuel ->
  named_loop fuel root pending acc = Some (Ok (acc ++ flat_map (fun p => leaves (fst p) (snd p)) (combine pending ds))%list).
Proof.
  intros D. induction fuel as [|fuel IH]; intros pending acc ds F S.
  - destruct F as [|r d pending ds R F]; [cbn; now rewrite app_nil_r|]. exfalso. cbn in S. destruct d; cbn in S; lia.
  - destruct F as [|r d pending ds R F]; [cbn; now rewrite app_nil_r|]. cbn [named_loop]. unfold find_children.
    rewrite (reaches_lookup _ _ _ D R). cbn [bind]. destruct d as [c|kids].
    + rewrite (IH pending (acc ++ [r])%list ds F ltac:(cbn [map nodes list_sum fold_right] in S; unfold list_sum; lia)). cbn [combine flat_map fst snd leaves]. rewrite <- app_assoc. reflexivity.
    + cbn [map] in S. rewrite (IH _ acc (rev (map snd kids) ++ ds)%list).
      * do 3 f_equal. cbn [combine flat_map fst snd]. rewrite leaves_dict.
        assert (E : combine (rev (map (fun k => (r ++ [k])%list) (ikeys kids)) ++ pending) (rev (map snd kids) ++ ds)
                    = (map (fun p => ((r ++ [fst p])%list, snd p)) (rev kids) ++ combine pending ds)%list).
        { unfold ikeys. rewrite map_map, <- !map_rev. generalize (rev kids) as l. induction l as [|p l IHl]; [reflexivity|].
          cbn. f_equal. exact IHl. }
        rewrite E, flat_map_app. f_equal. generalize (rev kids) as l. induction l as [|p l IHl]; [reflexivity|]. cbn. now rewrite IHl.
      * assert (G : forall l, (forall p, In p l -> In p kids) ->
          Forall2 (fun r d => reaches root r d) (map (fun k => (r ++ [k])%list) (map fst l)) (map snd l)).
        { induction l as [|(k, d) l IHl]; [constructor|]. intros SUB. constructor.
          - eapply reaches_app; [exact R|]. econstructor; [apply SUB; left; reflexivity|constructor].
          - apply IHl. intros p I. apply SUB. now right. }
        apply Forall2_app; [|exact F]. unfold ikeys. rewrite <- !map_rev. apply G. intros p I. now apply in_rev.
      * cbn [list_sum fold_right nodes] in S. rewrite map_app, list_sum_app, map_rev.
        assert (Q : forall l, list_sum (rev l) = list_sum l).
        { induction l as [|x l IHl]; [reflexivity|]. cbn [rev]. rewrite list_sum_app, IHl. unfold list_sum. cbn [fold_right]. lia. }
        rewrite Q, map_map. unfold list_sum in *. lia.
Qed.
Lemma leaves_spec : forall d r p, In p (leaves r d) <-> exists q c, p = (r ++ q)%list /\ reaches d q (DFrame c).
Proof.
  apply (domain_ind' (fun d => forall r p, In p (leaves r d) <-> exists q c, p = (r ++ q)%list /\ reaches d q (DFrame c))).
  - intros c r p. cbn. split.
    + intros [<-|[]]. exists [], c. rewrite app_nil_r. split; [reflexivity|constructor].
    + intros (q & c' & -> & R). inversion R; subst. left. now rewrite app_nil_r.
  - intros kids IH r p. rewrite leaves_dict, in_flat_map. split.
    + intros ((k, d) & I & L). apply in_rev in I. cbn in L. apply (IH k d I) in L as (q & c & -> & R).
      exists (k :: q), c. split; [rewrite <- app_assoc; reflexivity|]. econstructor; eassumption.
    + intros (q & c & -> & R). inversion R as [|kids0 k d q' x I R']; subst. exists (k, d).
      split; [now apply in_rev in I|]. cbn. apply (IH k d I). exists q', c. split; [now rewrite <- app_assoc|exact R'].
Qed.
Lemma leaves_nodup : forall d r, distinct_keys d -> NoDup (leaves r d).
Proof.
  apply (domain_ind' (fun d => forall r, distinct_keys d -> NoDup (leaves r d))).
  - intros c r _. cbn. constructor; [intros []|constructor].
  - intros kids IH r D. inversion D as [|? N K]; subst. rewrite leaves_dict. apply NoDup_flat_map.
    + apply NoDup_rev. now apply NoDup_map_inv in N.
    + intros (k, d) I. apply in_rev in I. cbn. eapply IH; eauto.
    + intros (k, d) (k', d') p I I' L L'. apply in_rev in I, I'. cbn in L, L'.
      apply leaves_spec in L as (q & c & E & _). apply leaves_spec in L' as (q' & c' & E' & _). rewrite E in E'.
      rewrite <- !app_assoc in E'. apply app_inv_head in E'. injection E' as -> _.
      f_equal. pose proof (in_iget _ _ _ N I) as X. rewrite (in_iget _ _ _ N I') in X. congruence.
Qed.
Lemma mapM_identifiers l : (forall r, In r l -> r <> []) ->
  mapM (fun r => let* k := ref_identifier r in Ok (r, is_named k)) l
  = Ok (map (fun r => (r, is_named (last r (TemporaryTable 0)))) l).
Proof.
  induction l as [|r l IH]; [reflexivity|]. intros H. cbn [mapM]. unfold ref_identifier at 1.
  destruct (rev r) as [|k r'] eqn:E.
  - exfalso. apply (H r); [now left|]. apply (f_equal (@rev _)) in E. now rewrite rev_involutive in E.
  - cbn [bind]. rewrite IH by (intros; apply H; now right). cbn [bind map]. do 3 f_equal.
    apply (f_equal (@rev _)) in E. rewrite rev_involutive in E. subst r. cbn. now rewrite last_last.
Qed.
Lemma find_named_tables_spec d : distinct_keys d -> (exists kids, d = DDict kids) ->
  exists l, find_named_tables d = Ok l /\ NoDup l
    /\ forall r, In r l <-> exists name cols, called name r /\ reaches d r (DFrame cols).
Proof.
  intros D (kids & K). unfold find_named_tables.
  rewrite (named_loop_leaves d D (nodes d) [[]] [] [d]); [|constructor; [constructor|constructor]|cbn; lia].
  cbn [combine flat_map fst snd app bind]. rewrite app_nil_r.
  assert (NE : forall r, In r (leaves [] d) -> r <> []).
  { intros r I E. subst r d. apply leaves_spec in I as (q & c & E & R). cbn in E. subst q. inversion R. }
  rewrite (mapM_identifiers _ NE). cbn [bind]. eexists. split; [reflexivity|].
  assert (EQ : map fst (filter snd (map (fun r => (r, is_named (last r (TemporaryTable 0)))) (leaves [] d)))
               = filter (fun r => is_named (last r (TemporaryTable 0))) (leaves [] d)).
  { clear NE. induction (leaves [] d) as [|r l IH]; [reflexivity|]. cbn.
    destruct (is_named (last r (TemporaryTable 0))); cbn; rewrite IH; reflexivity. }
  rewrite EQ. split.
  - apply List.NoDup_filter, leaves_nodup, D.
  - intros r. rewrite filter_In, leaves_spec. split.
    + intros ((q & c & -> & R) & N). cbn [app] in *. destruct q as [|k0 q0]; [discriminate N|].
      destruct (exists_last (l := k0 :: q0)) as (p & k & E); [discriminate|]. rewrite E in *. rewrite last_last in N.
      destruct k as [name| |]; try discriminate. exists name, c. split; [exists p; reflexivity|exact R].
    + intros (name & c & (p & ->) & R). split; [exists (p ++ [NamedTable name])%list, c; split; [reflexivity|exact R]|]. now rewrite last_last.
Qed.
