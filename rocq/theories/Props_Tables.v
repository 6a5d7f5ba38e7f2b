(** C40: looking up tables in a session's nested data.  The specification is at the top of
    TablesProofs.v ([reaches], [called], [unambiguous], [measured_by], [suits]). *)
From Coq Require Import String Bool Arith ZArith Lia Permutation List.
From Verif Require Import Prelude Value Rows Constraints Schema Query Transform Tables TablesProofs.
Import ListNotations.
Local Open Scope string_scope.
Local Open Scope nat_scope.

(** ** C40 *)

(** Looking up a name finds the one part of the data with that name, at any depth. *)
Theorem C40_lookup_finds_the_table : forall name d, distinct_keys d -> unambiguous name d -> forall r,
  find_reference name d = Some r <-> called name r /\ exists x, reaches d r x.
Proof.
  intros name d D U r. split; [apply find_reference_some|]. intros (C & x & E). eapply find_reference_iff; eassumption.
Qed.
Print Assumptions C40_lookup_finds_the_table.

(** Absence is reported exactly when nothing has the name (no assumptions). *)
Theorem C40_absence_is_reported : forall name d,
  find_reference name d = None <-> forall r x, called name r -> ~ reaches d r x.
Proof.
  intros name d. split; [apply find_reference_none|]. intros N. destruct (find_reference name d) as [r|] eqn:E; [|reflexivity].
  destruct (find_reference_some name d r E) as (C & x & RE). exfalso. exact (N r x C RE).
Qed.
Print Assumptions C40_absence_is_reported.

(** A reference gives the table it leads to, and nothing for references that lead nowhere. *)
Theorem C40_reference_gives_its_table : forall d, distinct_keys d -> forall r x,
  lookup_domain d r = Ok x <-> reaches d r x.
Proof. intros d D r x. split; [apply lookup_reaches|apply reaches_lookup, D]. Qed.
Print Assumptions C40_reference_gives_its_table.

(** The metric found for a table is the one recorded for it: its own, or grouping by the
    key column its collection has for it. *)
Theorem C40_metric_of_the_table : forall d m, distinct_keys d -> suits d m -> forall r cols,
  reaches d r (DFrame cols) -> forall p, lookup_metric m r = Ok (MTable p) <-> measured_by m r p.
Proof.
  intros d m D S r cols RE p. split.
  - intros L. destruct (measured_lookup d m S D r cols RE) as (p' & L' & M). congruence.
  - intros M. eapply measured_det; eassumption.
Qed.
Print Assumptions C40_metric_of_the_table.
Theorem C40_every_table_has_a_metric : forall d m, distinct_keys d -> suits d m -> forall r cols,
  reaches d r (DFrame cols) -> exists p, lookup_metric m r = Ok (MTable p).
Proof. intros d m D S r cols RE. destruct (measured_lookup d m S D r cols RE) as (p' & L' & _). eauto. Qed.
Print Assumptions C40_every_table_has_a_metric.

(** Listing the named tables gives each of them once, and nothing else. *)
Theorem C40_listing_is_complete : forall kids, distinct_keys (DDict kids) ->
  exists l, find_named_tables (DDict kids) = Ok l /\ NoDup l
    /\ forall r, In r l <-> exists name cols, called name r /\ reaches (DDict kids) r (DFrame cols).
Proof. intros kids D. apply find_named_tables_spec; [exact D|eauto]. Qed.
Print Assumptions C40_listing_is_complete.

(** Three tables, two of them in an ID space, and a temporary table. *)
Definition nested : domain :=
  DDict [(NamedTable "plain", DFrame [("a", CInt false)]);
         (TableCollection "people", DDict [(NamedTable "users", DFrame [("id", CString false)]);
                                           (TemporaryTable 3, DFrame []);
                                           (NamedTable "visits", DFrame [("id", CString false); ("n", CInt true)])])].
Definition nested_metric : metric :=
  MDict [(NamedTable "plain", MTable PSym);
         (TableCollection "people", MKeys [(NamedTable "users", "id"); (TemporaryTable 3, "id"); (NamedTable "visits", "id")])].
Lemma nested_distinct : distinct_keys nested.
Proof.
  unfold nested. constructor.
  - cbn. repeat constructor; cbn; intuition discriminate.
  - intros k d [[= <- <-]|[[= <- <-]|[]]]; [constructor|]. constructor.
    + cbn. repeat constructor; cbn; intuition discriminate.
    + intros k d [[= <- <-]|[[= <- <-]|[[= <- <-]|[]]]]; constructor.
Qed.
Lemma nested_suits : suits nested nested_metric.
Proof.
  unfold nested, nested_metric. constructor; [reflexivity|].
  intros k d m [[= <- <-]|[[= <- <-]|[]]] [[= <-]|[[= <-]|[]]]; constructor; [reflexivity|].
  intros k d [[= <- <-]|[[= <- <-]|[[= <- <-]|[]]]]; eauto.
Qed.
Lemma reaches_inv d r x : reaches d r x ->
  (r = [] /\ x = d) \/ exists kids k d' r', d = DDict kids /\ r = k :: r' /\ In (k, d') kids /\ reaches d' r' x.
Proof. intros []; [now left|]. right. eauto 10. Qed.
Lemma nested_paths r x : reaches nested r x ->
  In r [[]; [NamedTable "plain"]; [TableCollection "people"]; [TableCollection "people"; NamedTable "users"];
        [TableCollection "people"; TemporaryTable 3]; [TableCollection "people"; NamedTable "visits"]].
Proof.
  intros RE. apply reaches_inv in RE as [(-> & _)|(kids & k & d & r' & [= <-] & -> & I & RE)]; [now left|].
  destruct I as [[= <- <-]|[[= <- <-]|[]]]; apply reaches_inv in RE as [(-> & _)|(kids & k & d & r'' & E & -> & I & RE)];
    try (cbn; tauto); [discriminate E|]. injection E as <-.
  destruct I as [[= <- <-]|[[= <- <-]|[[= <- <-]|[]]]]; apply reaches_inv in RE as [(-> & _)|(kids & k & d & r3 & E & -> & I & RE)];
    try (cbn; tauto); discriminate E.
Qed.
Lemma called_last name r : called name r -> last r (TemporaryTable 0) = NamedTable name.
Proof. intros (p & ->). apply last_last. Qed.
Lemma nested_unambiguous name : unambiguous name nested.
Proof.
  intros r r' x x' A B C C'. apply nested_paths in A, B. apply called_last in C, C'. rewrite <- C' in C. clear C' x x' name. cbn in A, B.
  destruct A as [<-|[<-|[<-|[<-|[<-|[<-|[]]]]]]]; destruct B as [<-|[<-|[<-|[<-|[<-|[<-|[]]]]]]]; cbn in C; congruence.
Qed.
Example lookups :
  find_reference "visits" nested = Some [TableCollection "people"; NamedTable "visits"]
  /\ find_reference "people" nested = None
  /\ lookup_domain nested [TableCollection "people"; NamedTable "visits"] = Ok (DFrame [("id", CString false); ("n", CInt true)])
  /\ lookup_domain nested [TableCollection "people"; NamedTable "plain"] = Err KeyError
  /\ lookup_metric nested_metric [TableCollection "people"; NamedTable "visits"] = Ok (MTable (PKeys "id"))
  /\ find_named_tables nested = Ok [[TableCollection "people"; NamedTable "visits"]; [TableCollection "people"; NamedTable "users"]; [NamedTable "plain"]].
Proof. repeat split. Qed.
(** The theorems apply to it. *)
Example lookup_applies : called "visits" [TableCollection "people"; NamedTable "visits"]
  /\ distinct_keys nested /\ suits nested nested_metric /\ unambiguous "visits" nested.
Proof. split; [now exists [TableCollection "people"]|]. split; [apply nested_distinct|]. split; [apply nested_suits|apply nested_unambiguous]. Qed.
