(** Column values, column types, and Spark data frames: the data the models work on.
    Nothing here models a file of /repo; Spark itself is part of the trusted base and
    these definitions state what is assumed of it. *)
From Coq Require Import String Bool Arith ZArith QArith Qcanon Lia List.
From Verif Require Import Prelude.
Import ListNotations.

(** Doubles: finite ones are exact rationals (no arithmetic is done on them here). *)
Inductive fnum : Type := FFin (q : Qc) | FPInf | FNInf | FNan.

(** A cell of a table.  Dates and timestamps are day / microsecond numbers. *)
Inductive value : Type :=
| VNull
| VInt (z : Z)
| VFloat (f : fnum)
| VStr (s : string)
| VDate (d : Z)
| VTime (t : Z).

(** ColumnType, _schema.py 129-177. *)
Inductive ctype : Type := INTEGER | DECIMAL | VARCHAR | DATE | TIMESTAMP.

(** ColumnDescriptor, _schema.py 181-196. *)
Record coldesc : Type := {
  cd_type : ctype;
  cd_null : bool;
  cd_nan : bool;
  cd_inf : bool
}.

Definition ctype_eqb (a b : ctype) : bool :=
  match a, b with
  | INTEGER, INTEGER | DECIMAL, DECIMAL | VARCHAR, VARCHAR | DATE, DATE
  | TIMESTAMP, TIMESTAMP => true
  | _, _ => false
  end.
Lemma ctype_eqb_eq a b : ctype_eqb a b = true <-> a = b.
Proof. destruct a, b; simpl; split; congruence. Qed.

Definition coldesc_eqb (a b : coldesc) : bool :=
  ctype_eqb (cd_type a) (cd_type b) && Bool.eqb (cd_null a) (cd_null b)
  && Bool.eqb (cd_nan a) (cd_nan b) && Bool.eqb (cd_inf a) (cd_inf b).
Lemma coldesc_eqb_eq a b : coldesc_eqb a b = true <-> a = b.
Proof.
  destruct a, b; unfold coldesc_eqb; simpl.
  rewrite !andb_true_iff, ctype_eqb_eq, !eqb_true_iff. split.
  - intros [[[-> ->] ->] ->]; reflexivity.
  - intros E; inversion E; auto.
Qed.

Definition value_eq_dec (a b : value) : {a = b} + {a <> b}.
Proof.
  decide equality; try apply Z.eq_dec; try apply String.string_dec.
  decide equality. apply Qc_eq_dec.
Defined.
Definition value_eqb (a b : value) : bool := if value_eq_dec a b then true else false.
Lemma value_eqb_eq a b : value_eqb a b = true <-> a = b.
Proof. unfold value_eqb. destruct (value_eq_dec a b); split; congruence. Qed.
Lemma value_eqb_refl a : value_eqb a a = true.
Proof. apply value_eqb_eq; reflexivity. Qed.

Definition row := list value.
Definition row_eqb : row -> row -> bool := list_eqb value_eqb.
Lemma row_eqb_eq a b : row_eqb a b = true <-> a = b.
Proof. apply list_eqb_eq, value_eqb_eq. Qed.
Definition row_eq_dec (a b : row) : {a = b} + {a <> b} := list_eq_dec value_eq_dec a b.

Definition row_mem (r : row) (l : list row) : bool := existsb (row_eqb r) l.
Lemma row_mem_In r l : row_mem r l = true <-> In r l.
Proof.
  unfold row_mem. rewrite existsb_exists. split.
  - intros (y & Hy & E). apply row_eqb_eq in E; subst; assumption.
  - intros H; exists r; split; [assumption|apply row_eqb_eq; reflexivity].
Qed.

(** ** Data frames: named columns and rows of cells. *)
Record frame : Type := { fcols : list string; frows : list row }.

(** A valuation gives each column name a value; a row is a valuation of its columns. *)
Definition valuation := string -> value.

(** Row r's value in column c, absent columns read as null. *)
Fixpoint rget (cols : list string) (r : row) (c : string) : value :=
  match cols, r with
  | c' :: cs, v :: vs => if String.eqb c c' then v else rget cs vs c
  | _, _ => VNull
  end.

(** The key [rho] is one of the frame's rows. *)
Definition has (f : frame) (rho : valuation) : Prop := In (map rho (fcols f)) (frows f).

Definition wf_frame (f : frame) : Prop :=
  NoDup (fcols f) /\ forall r, In r (frows f) -> length r = length (fcols f).

(** df.select(cs) *)
Definition fselect (cs : list string) (f : frame) : frame :=
  {| fcols := cs; frows := map (fun r => map (rget (fcols f) r) cs) (frows f) |}.
(** df.dropDuplicates() / df.distinct() *)
Definition fdistinct (f : frame) : frame :=
  {| fcols := fcols f; frows := nodup row_eq_dec (frows f) |}.
(** df.crossJoin(df2) *)
Definition fcross (a b : frame) : frame :=
  {| fcols := fcols a ++ fcols b;
     frows := flat_map (fun r => map (fun s => r ++ s) (frows b)) (frows a) |}.
(** df.filter(cond) *)
Definition ffilter (p : valuation -> bool) (f : frame) : frame :=
  {| fcols := fcols f; frows := filter (fun r => p (rget (fcols f) r)) (frows f) |}.
(** Rows r of a and s of b agree on the columns [on], nulls being equal. *)
Definition agree (a b : frame) (on : list string) (r s : row) : bool :=
  forallb (fun c => value_eqb (rget (fcols a) r c) (rget (fcols b) s c)) on.
(** tmlt.core.utils.join.join(a, b, on, "inner", nulls_are_equal=True).  The order of
    the result's columns is not modelled faithfully; all users reorder by name. *)
Definition fjoin (on : list string) (a b : frame) : frame :=
  let rest := filter (fun c => negb (smem c on)) (fcols b) in
  {| fcols := fcols a ++ rest;
     frows := flat_map (fun r => map (fun s => r ++ map (rget (fcols b) s) rest)
                                     (filter (agree a b on r) (frows b))) (frows a) |}.
(** join(a, b, on, "left_anti", nulls_are_equal=True) *)
Definition fanti (on : list string) (a b : frame) : frame :=
  {| fcols := fcols a;
     frows := filter (fun r => negb (existsb (agree a b on r) (frows b))) (frows a) |}.
(** a.unionByName(b) *)
Definition funion (a b : frame) : frame :=
  {| fcols := fcols a; frows := frows a ++ frows (fselect (fcols a) b) |}.

(** *** Lemmas *)

Lemma rget_map rho cols c : In c cols -> rget cols (map rho cols) c = rho c.
Proof.
  induction cols as [|x r IH]; simpl; [tauto|]. intros H.
  destruct (String.eqb_spec c x) as [->|N]; [reflexivity|].
  apply IH. destruct H; [congruence|assumption].
Qed.

Lemma rget_notin cols r c : ~ In c cols -> rget cols r c = VNull.
Proof.
  revert r; induction cols as [|x t IH]; simpl; intros r H; [reflexivity|].
  destruct r as [|v r]; [reflexivity|].
  destruct (String.eqb_spec c x) as [->|N]; [tauto|]. apply IH. tauto.
Qed.

Lemma map_rget cols r : NoDup cols -> length r = length cols -> map (rget cols r) cols = r.
Proof.
  revert r; induction cols as [|c cs IH]; intros r ND L; destruct r as [|v vs]; simpl in *;
    try discriminate; [reflexivity|].
  rewrite String.eqb_refl. f_equal.
  inversion ND as [|? ? N1 N2]; subst. transitivity (map (rget cs vs) cs); [|apply IH; auto].
  apply map_ext_in. intros a Ha.
  destruct (String.eqb_spec a c) as [->|N]; [contradiction|reflexivity].
Qed.

Lemma map_eq_ext (f g : string -> value) l : map f l = map g l <-> forall c, In c l -> f c = g c.
Proof.
  induction l as [|x t IH]; simpl; split; intros H.
  - tauto.
  - reflexivity.
  - inversion H as [[H1 H2]]. intros c [->|Hc]; [assumption|]. exact (proj1 IH H2 c Hc).
  - f_equal; [apply H; auto|]. apply IH. intros; apply H; auto.
Qed.

Lemma has_ext f rho rho' : (forall c, In c (fcols f) -> rho c = rho' c) -> has f rho <-> has f rho'.
Proof. intros H. unfold has. replace (map rho' (fcols f)) with (map rho (fcols f)); [tauto|]. apply map_ext_in, H. Qed.

(** every row is a valuation *)
Lemma has_row f r : wf_frame f -> In r (frows f) -> has f (rget (fcols f) r).
Proof. intros [ND L] H. unfold has. rewrite map_rget; auto. Qed.

Lemma has_select cs f rho : wf_frame f -> (forall c, In c cs -> In c (fcols f)) ->
  has (fselect cs f) rho <-> exists rho', has f rho' /\ forall c, In c cs -> rho c = rho' c.
Proof.
  intros W I. unfold has at 1. simpl. rewrite in_map_iff. split.
  - intros (r & E & Hr). exists (rget (fcols f) r). split; [apply has_row; assumption|].
    intros c Hc. symmetry. revert c Hc. apply map_eq_ext. assumption.
  - intros (rho' & H & E). exists (map rho' (fcols f)). split; [|exact H].
    apply map_ext_in. intros c Hc. rewrite rget_map by auto. symmetry; auto.
Qed.

Lemma wf_select cs f : NoDup cs -> wf_frame (fselect cs f).
Proof.
  intros ND. split; [assumption|]. simpl. intros r H. apply in_map_iff in H as (s & <- & _).
  apply map_length.
Qed.

(** Reordering columns changes nothing. *)
Lemma has_reorder cs f rho : wf_frame f -> (forall c, In c cs <-> In c (fcols f)) ->
  has (fselect cs f) rho <-> has f rho.
Proof.
  intros W I. rewrite has_select by (assumption || (intros; apply I; assumption)). split.
  - intros (rho' & H & E). revert H. apply has_ext. intros c Hc. apply I in Hc. first [apply E|symmetry; apply E]; exact Hc.
  - intros H. exists rho. auto.
Qed.

Lemma has_distinct f rho : has (fdistinct f) rho <-> has f rho.
Proof. unfold has. simpl. apply nodup_In. Qed.
Lemma wf_distinct f : wf_frame f -> wf_frame (fdistinct f).
Proof. intros [ND L]. split; [assumption|]. simpl. intros r H. apply nodup_In in H. auto. Qed.
Lemma NoDup_distinct f : NoDup (frows (fdistinct f)).
Proof. apply NoDup_nodup. Qed.

Lemma has_filter p f rho : wf_frame f ->
  (forall g h, (forall x, g x = h x) -> p g = p h) ->
  has (ffilter p f) rho <->
  has f rho /\ p (fun c => if smem c (fcols f) then rho c else VNull) = true.
Proof.
  intros W E. unfold has. simpl. rewrite filter_In.
  replace (p (rget (fcols f) (map rho (fcols f))))
    with (p (fun c => if smem c (fcols f) then rho c else VNull)); [tauto|].
  apply E. intros c. destruct (smem c (fcols f)) eqn:M.
  - apply smem_In in M. symmetry. apply rget_map, M.
  - apply smem_false in M. symmetry. apply rget_notin, M.
Qed.
Lemma wf_filter p f : wf_frame f -> wf_frame (ffilter p f).
Proof. intros [ND L]. split; [assumption|]. simpl. intros r H. apply filter_In in H as [H _]. auto. Qed.
Lemma NoDup_filter p f : NoDup (frows f) -> NoDup (frows (ffilter p f)).
Proof. apply List.NoDup_filter. Qed.

Lemma app_inj_length {A} (a a' b b' : list A) : length a = length a' -> a ++ b = a' ++ b' -> a = a' /\ b = b'.
Proof.
  revert a'; induction a as [|x a IH]; intros [|y a'] L H; simpl in *; try discriminate; auto.
  inversion H; subst. destruct (IH a') as [-> ->]; auto.
Qed.

Lemma has_cross a b rho : wf_frame a -> has (fcross a b) rho <-> has a rho /\ has b rho.
Proof.
  intros [NDa La]. unfold has. simpl. rewrite map_app, in_flat_map. split.
  - intros (r & Hr & H). apply in_map_iff in H as (s & E & Hs).
    apply app_inj_length in E as [-> ->]; [auto|]. rewrite map_length. auto.
  - intros [Ha Hb]. exists (map rho (fcols a)). split; [assumption|]. apply in_map_iff.
    exists (map rho (fcols b)). auto.
Qed.
Lemma NoDup_app_disjoint {A} (l l' : list A) :
  NoDup l -> NoDup l' -> (forall x, In x l -> In x l' -> False) -> NoDup (l ++ l').
Proof.
  induction l as [|x t IH]; simpl; intros N1 N2 D; [assumption|].
  inversion N1; subst. constructor.
  - rewrite in_app_iff. intros [H|H]; [contradiction|]. apply (D x); auto.
  - apply IH; auto. intros y Hy Hy'. apply (D y); auto.
Qed.

Lemma wf_cross a b : wf_frame a -> wf_frame b ->
  (forall c, In c (fcols a) -> In c (fcols b) -> False) -> wf_frame (fcross a b).
Proof.
  intros [NDa La] [NDb Lb] D. split; simpl.
  - apply NoDup_app_disjoint; assumption.
  - intros r H. apply in_flat_map in H as (s & Hs & H). apply in_map_iff in H as (t & <- & Ht).
    rewrite !app_length. rewrite (La s Hs), (Lb t Ht). reflexivity.
Qed.

Lemma NoDup_flat_map {A B} (f : A -> list B) l :
  NoDup l -> (forall x, In x l -> NoDup (f x)) ->
  (forall x y z, In x l -> In y l -> In z (f x) -> In z (f y) -> x = y) ->
  NoDup (flat_map f l).
Proof.
  induction l as [|x t IH]; simpl; intros ND N D; [constructor|].
  inversion ND; subst. apply NoDup_app_disjoint.
  - apply N; auto.
  - apply IH; auto. intros a b z Ha Hb. apply D; auto.
  - intros z Hz Hz'. apply in_flat_map in Hz' as (y & Hy & Hzy).
    assert (x = y) by (apply (D x y z); auto). subst. contradiction.
Qed.

Lemma NoDup_map_inj {A B} (f : A -> B) l :
  NoDup l -> (forall x y, In x l -> In y l -> f x = f y -> x = y) -> NoDup (map f l).
Proof.
  induction l as [|x t IH]; simpl; intros ND I; [constructor|].
  inversion ND; subst. constructor.
  - rewrite in_map_iff. intros (y & E & Hy). assert (y = x) by (apply I; auto). subst. contradiction.
  - apply IH; auto.
Qed.

Lemma NoDup_cross a b : wf_frame a -> NoDup (frows a) -> NoDup (frows b) -> NoDup (frows (fcross a b)).
Proof.
  intros [_ La] Na Nb. simpl. apply NoDup_flat_map; [assumption| |].
  - intros r _. apply NoDup_map_inj; [assumption|]. intros s s' _ _ E.
    apply app_inv_head in E. assumption.
  - intros r r' z Hr Hr' H H'. apply in_map_iff in H as (s & <- & _).
    apply in_map_iff in H' as (s' & E & _).
    apply app_inj_length in E as [E _]; [auto|]. rewrite (La r Hr), (La r' Hr'). reflexivity.
Qed.

Lemma length_cross a b : length (frows (fcross a b)) = (length (frows a) * length (frows b))%nat.
Proof.
  simpl. induction (frows a) as [|r t IH]; simpl; [reflexivity|].
  rewrite app_length, map_length. f_equal. exact IH.
Qed.

(** the shared columns, and the join on exactly those *)
Definition common (a b : list string) : list string := filter (fun c => smem c b) a.
Lemma common_In a b c : In c (common a b) <-> In c a /\ In c b.
Proof. unfold common. rewrite filter_In, smem_In. tauto. Qed.

Lemma agree_spec a b on r s : agree a b on r s = true <->
  forall c, In c on -> rget (fcols a) r c = rget (fcols b) s c.
Proof.
  unfold agree. rewrite forallb_forall. split; intros H c Hc.
  - apply value_eqb_eq; auto.
  - apply value_eqb_eq; auto.
Qed.

Lemma has_join on a b rho : wf_frame a -> wf_frame b ->
  (forall c, In c on <-> In c (fcols a) /\ In c (fcols b)) ->
  has (fjoin on a b) rho <-> has a rho /\ has b rho.
Proof.
  intros [NDa La] [NDb Lb] O. unfold has. simpl. rewrite map_app, in_flat_map. split.
  - intros (r & Hr & H). apply in_map_iff in H as (s & E & Hs). apply filter_In in Hs as [Hs A].
    rewrite agree_spec in A.
    apply app_inj_length in E as [-> E]; [|rewrite map_length; auto].
    split; [assumption|].
    replace (map rho (fcols b)) with s; [assumption|].
    rewrite <- (map_rget (fcols b) s NDb (Lb s Hs)). apply map_ext_in. intros c Hc.
    destruct (smem c on) eqn:M.
    + apply smem_In in M. rewrite <- (A c M). apply rget_map. apply O in M. tauto.
    + revert c Hc M. intros c Hc M. pose proof (proj1 (map_eq_ext _ _ _) E c) as X.
      apply X. apply filter_In. rewrite M. auto.
  - intros [Ha Hb]. exists (map rho (fcols a)). split; [assumption|]. apply in_map_iff.
    exists (map rho (fcols b)). split.
    + f_equal. apply map_ext_in. intros c Hc. apply filter_In in Hc as [Hc _].
      apply rget_map, Hc.
    + apply filter_In. split; [assumption|]. apply agree_spec. intros c Hc.
      apply O in Hc as [H1 H2]. rewrite !rget_map by assumption. reflexivity.
Qed.

Lemma wf_join on a b : wf_frame a -> wf_frame b ->
  (forall c, In c on <-> In c (fcols a) /\ In c (fcols b)) -> wf_frame (fjoin on a b).
Proof.
  intros [NDa La] [NDb Lb] O. split; simpl.
  - apply NoDup_app_disjoint; [assumption|apply List.NoDup_filter; assumption|].
    intros c H1 H2. apply filter_In in H2 as [H2 H3]. apply negb_true_iff, smem_false in H3.
    apply H3, O. auto.
  - intros r H. apply in_flat_map in H as (s & Hs & H). apply in_map_iff in H as (t & <- & Ht).
    rewrite !app_length, map_length. rewrite (La s Hs). reflexivity.
Qed.

Lemma NoDup_join on a b : wf_frame a -> wf_frame b ->
  (forall c, In c on <-> In c (fcols a) /\ In c (fcols b)) ->
  NoDup (frows a) -> NoDup (frows b) -> NoDup (frows (fjoin on a b)).
Proof.
  intros [NDa La] [NDb Lb] O Na Nb. simpl. apply NoDup_flat_map; [assumption| |].
  - intros r Hr. apply NoDup_map_inj; [apply List.NoDup_filter; assumption|].
    intros s s' Hs Hs' E. apply app_inv_head in E.
    apply filter_In in Hs as [Hs A]. apply filter_In in Hs' as [Hs' A'].
    rewrite agree_spec in A, A'.
    rewrite <- (map_rget (fcols b) s NDb (Lb s Hs)), <- (map_rget (fcols b) s' NDb (Lb s' Hs')).
    apply map_ext_in. intros c Hc. destruct (smem c on) eqn:M.
    + apply smem_In in M. rewrite <- (A c M), <- (A' c M). reflexivity.
    + apply (proj1 (map_eq_ext _ _ _) E c). apply filter_In. rewrite M. auto.
  - intros r r' z Hr Hr' H H'. apply in_map_iff in H as (s & <- & _).
    apply in_map_iff in H' as (s' & E & _).
    apply app_inj_length in E as [E _]; [auto|]. rewrite (La r Hr), (La r' Hr'). reflexivity.
Qed.

Lemma has_anti on a b rho : wf_frame a -> wf_frame b ->
  (forall c, In c on -> In c (fcols a)) -> (forall c, In c on <-> In c (fcols b)) ->
  has (fanti on a b) rho <-> has a rho /\ ~ has b rho.
Proof.
  intros [NDa La] [NDb Lb] Oa Ob. unfold has. simpl. rewrite filter_In, negb_true_iff.
  split; intros [H1 H2]; (split; [assumption|]).
  - intros Hb. assert (X : existsb (agree a b on (map rho (fcols a))) (frows b) = true); [|congruence].
    apply existsb_exists. exists (map rho (fcols b)). split; [assumption|].
    apply agree_spec. intros c Hc. rewrite !rget_map; auto. apply Ob; assumption.
  - destruct (existsb (agree a b on (map rho (fcols a))) (frows b)) eqn:X; auto.
    exfalso. apply H2. apply existsb_exists in X as (s & Hs & A). rewrite agree_spec in A.
    replace (map rho (fcols b)) with s; [assumption|].
    rewrite <- (map_rget (fcols b) s NDb (Lb s Hs)). apply map_ext_in. intros c Hc.
    apply Ob in Hc. rewrite <- (A c Hc). apply rget_map; auto.
Qed.
Lemma wf_anti on a b : wf_frame a -> wf_frame (fanti on a b).
Proof. intros [ND L]. split; [assumption|]. simpl. intros r H. apply filter_In in H as [H _]. auto. Qed.
Lemma NoDup_anti on a b : NoDup (frows a) -> NoDup (frows (fanti on a b)).
Proof. apply List.NoDup_filter. Qed.

Lemma has_union a b rho : wf_frame a -> wf_frame b -> (forall c, In c (fcols a) <-> In c (fcols b)) ->
  has (funion a b) rho <-> has a rho \/ has b rho.
Proof.
  intros Wa Wb C. unfold has at 1. cbn [fcols funion frows]. rewrite in_app_iff.
  fold (has a rho). change (In (map rho (fcols a)) (frows (fselect (fcols a) b)))
    with (has (fselect (fcols a) b) rho).
  rewrite has_reorder by assumption. tauto.
Qed.
Lemma wf_union a b : wf_frame a -> wf_frame (funion a b).
Proof.
  intros [ND L]. split; [assumption|]. simpl. intros r H. apply in_app_iff in H as [H|H]; auto.
  apply in_map_iff in H as (s & <- & _). apply map_length.
Qed.
