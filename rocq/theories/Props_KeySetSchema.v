(** C63: schemas of KeySets.

    The specification is in KeySetApi.v ([kexpr]: a program that builds a KeySet; [kcols]: its
    documented columns), KeySetSchema.v ([typed], [may]: the documented type of a column and
    whether it may contain nulls, NaN or infinity) and KeySetSchemaApi.v ([fits]). *)
From Coq Require Import String Bool Arith ZArith Lia List.
From Verif Require Import Prelude Value KeySet KeySetSem KeySetRules KeySetApi KeySetSchema KeySetSchemaApi Props_KeySet.
Import ListNotations.
Local Open Scope string_scope.

(** schema() of a KeySet built by any nesting of the operations has the documented columns, in
    order, each with the documented type and marks, whatever was done to the tree inside. *)
Theorem C63_schema_is_documented :
  forall (W : world) (e : kexpr) (k : keyset),
    concrete e = true -> frames_ok e -> eval W e = Ok k ->
    exists s, ks_schema k = Ok s /\ map fst s = kcols e /\ NoDup (map fst s)
      /\ forall c d, In (c, d) s ->
           (forall t, cd_type d = t <-> typed e c t)
           /\ (cd_null d = true <-> may MNull e c)
           /\ (cd_nan d = true <-> may MNan e c)
           /\ (cd_inf d = true <-> may MInf e c).
Proof.
  intros W e k C F E. destruct (eval_schema W e k C F E) as (s & Es & Ks & As).
  destruct (eval_described W e C F k E) as (_ & _ & N & _).
  assert (Ns : NoDup (map fst s)) by (unfold dkeys in Ks; rewrite Ks; exact N).
  exists s. split; [exact Es|]. split; [exact Ks|]. split; [exact Ns|].
  intros c d H. destruct (As c d (In_dget c d s Ns H)) as [T M].
  split; [exact T|]. split; [exact (M MNull)|]. split; [exact (M MNan)|exact (M MInf)].
Qed.

(** In particular: every documented column has one type, and only one. *)
Corollary C63_one_type_per_column :
  forall (W : world) (e : kexpr) (k : keyset) (c : string),
    concrete e = true -> frames_ok e -> eval W e = Ok k -> In c (kcols e) ->
    exists t, typed e c t /\ forall t', typed e c t' -> t' = t.
Proof.
  intros W e k c C F E Hc. destruct (C63_schema_is_documented W e k C F E) as (s & _ & Ks & _ & A).
  rewrite <- Ks in Hc. apply in_map_iff in Hc as ((c', d) & <- & H). destruct (A _ _ H) as (T & _).
  exists (cd_type d). split; [apply T; reflexivity|]. intros t' H'. symmetry. apply T, H'.
Qed.

(** Every row that dataframe() shows fits the schema: as many cells as columns, in the same
    order, each of the type of its column, or null where the schema allows nulls. *)
Theorem C63_keys_fit_schema :
  forall (W : world) (D : oracle) (e : kexpr) (k : keyset) (f : frame) (s : dict coldesc),
    usable W D e -> concrete e = true -> frames_fit W e -> kcols e <> [] ->
    eval W e = Ok k -> ks_dataframe W k = Ok f -> ks_schema k = Ok s ->
    fcols f = map fst s /\ forall r, In r (frows f) -> Forall2 (fun q v => fits (snd q) v) s r.
Proof. exact rows_fit. Qed.

(** ** Cases *)

(** [widened] has b-values that include a null; the join with [tab], which may contain nulls, may;
    the join with values without nulls may not. *)
Definition nullable := ETuples [[VStr "y"]; [VNull]] ["b"].
Definition widened := EUnion nullable bvals.
Definition col (t : ctype) (n : bool) : coldesc := {| cd_type := t; cd_null := n; cd_nan := false; cd_inf := false |}.

Example C63_case :
  frames_ok (EJoin tab widened) /\ concrete (EJoin tab widened) = true /\ frames_fit W0 (EJoin tab widened)
  /\ usable W0 D0 (EJoin tab widened)
  /\ (exists k f, eval W0 (EJoin tab widened) = Ok k /\ ks_dataframe W0 k = Ok f /\ frows f = [[VInt 2; VStr "y"]]
      /\ ks_schema k = Ok [("a", col INTEGER true); ("b", col VARCHAR true)])
  /\ (exists k, eval W0 (EJoin tab bvals) = Ok k
      /\ ks_schema k = Ok [("a", col INTEGER true); ("b", col VARCHAR false)])
  /\ (exists k, eval W0 (EProj (EMul cvals widened) ["b"; "c"]) = Ok k
      /\ ks_schema k = Ok [("b", col VARCHAR true); ("c", col INTEGER false)]).
Proof.
  split.
  { split; [|split; exact I]. cbn. repeat constructor; cbn; intuition discriminate. }
  split; [reflexivity|]. split.
  { split; [|split; exact I]. cbn. intros r [<-|[<-|[<-|[]]]]; repeat constructor; right; reflexivity. }
  split.
  { split; [|split; [exact I|split; [exact I|discriminate]]]. split; [cbn; repeat constructor; cbn; intuition discriminate|].
    cbn. intros r [<-|[<-|[<-|[]]]]; reflexivity. }
  split; [eexists _, _; split; [vm_compute; reflexivity|]; split; [vm_compute; reflexivity|]; split; vm_compute; reflexivity|].
  split; eexists; split; vm_compute; reflexivity.
Qed.

Print Assumptions C63_schema_is_documented.
Print Assumptions C63_one_type_per_column.
Print Assumptions C63_keys_fit_schema.
