(** Chains of builder calls, and the tables of a built session. *)
From Coq Require Import String Bool Arith ZArith QArith Lia Permutation List.
From Verif Require Import Prelude Budget BudgetProofs Value Rows Constraints Schema SchemaProofs Query Transform Tables TablesProofs TransformConform TransformAgree 
  Accountant AccountantProofs Session SessionSpec SessionTables SessionInv SessionViews Neighboring NeighboringSpec NeighboringProofs Builder BuilderProofs BuilderTree BuilderBuild.
Import ListNotations.
Local Open Scope string_scope.
Local Open Scope nat_scope.

(** ** What calls ask for *)

Definition budgets (l : list bcall) : list budget := flat_map (fun c => match c with WithBudget x => [x] | _ => [] end) l.
Definition privates (l : list bcall) : list (string * (sframe * change)) :=
  flat_map (fun c => match c with WithPrivate n f p => [(n, (f, p))] | _ => [] end) l.
Definition publics (l : list bcall) : list (string * sframe) := flat_map (fun c => match c with WithPublic n f => [(n, f)] | _ => [] end) l.
Definition spaces (l : list bcall) : list string := flat_map (fun c => match c with WithIdSpace s => [s] | _ => [] end) l.
(** The frame a table is stored as. *)
Definition stored (f : sframe) : sframe := match coerce_spark_schema_or_fail f with Ok f => f | Err _ => f end.
Definition stored_private (l : list (string * (sframe * change))) : dict (sframe * change) := map (fun p => (fst p, (stored (fst (snd p)), snd (snd p)))) l.
Definition stored_public (l : list (string * sframe)) : dict sframe := map (fun p => (fst p, stored (snd p))) l.

Section Calls.
Variable E : env.

(** Session.Builder().call(...).call(...): an exception ends the chain. *)
Fixpoint chain (b : builder) (l : list bcall) : res builder :=
  match l with [] => Ok b | c :: l => let* b := bcall_result E b c in chain b l end.

Definition opt1 {A} (o : option A) : list A := match o with Some x => [x] | None => [] end.
Definition accepts (b : builder) (l : list bcall) : Prop :=
  length (opt1 (b_budget b) ++ budgets l) <= 1
  /\ NoDup ((dkeys (b_private b) ++ dkeys (privates l)) ++ (dkeys (b_public b) ++ dkeys (publics l)))
  /\ Forall (fun n => e_identifier E n = true) (dkeys (privates l) ++ dkeys (publics l) ++ spaces l)
  /\ (forall n f c, In (n, (f, c)) (privates l) -> check_change c = Ok tt /\ exists f', coerce_spark_schema_or_fail f = Ok f')
  /\ (forall n f, In (n, f) (publics l) -> exists f', coerce_spark_schema_or_fail f = Ok f')
  /\ NoDup (b_spaces b ++ spaces l).
Definition after (b : builder) (l : list bcall) : builder :=
  {| b_budget := match b_budget b with Some x => Some x | None => hd_error (budgets l) end;
     b_private := (b_private b ++ stored_private (privates l))%list;
     b_public := (b_public b ++ stored_public (publics l))%list;
     b_spaces := (b_spaces b ++ spaces l)%list |}.
Lemma dkeys_app {V} (a b : dict V) : dkeys (a ++ b)%list = (dkeys a ++ dkeys b)%list.
Proof. apply map_app. Qed.
Lemma after_nil b : after b [] = b.
Proof. destruct b as [[x|] p u s]; unfold after; cbn; now rewrite !app_nil_r. Qed.
Lemma perm_mid {A} (a b c d : list A) x : Permutation ((a ++ x :: b) ++ (c ++ d)) (((a ++ [x]) ++ b) ++ (c ++ d)).
Proof. now rewrite <- (app_assoc a [x]). Qed.
Lemma chain_ok l : forall b b', ~ In Build l -> NoDup (dkeys (b_private b) ++ dkeys (b_public b)) -> NoDup (b_spaces b) ->
  (chain b l = Ok b' <-> accepts b l /\ b' = after b l).
Proof.
  induction l as [|c l IH]; intros b b' NB N NS.
  - rewrite after_nil. cbn. split.
    + intros H. injection H as <-. split; [|reflexivity]. unfold accepts. cbn. rewrite !app_nil_r. split; [destruct (b_budget b); cbn; lia|].
      split; [exact N|]. split; [constructor|]. split; [intros ? ? ? []|]. split; [intros ? ? []|exact NS].
    + intros (_ & ->). reflexivity.
  - assert (NB' : ~ In Build l) by (intros X; apply NB; right; exact X). cbn [chain].
    assert (ST : forall b1, bcall_result E b c = Ok b1 -> (accepts b (c :: l) <-> accepts b1 l) /\ after b (c :: l) = after b1 l
                 /\ (NoDup (dkeys (b_private b1) ++ dkeys (b_public b1)) /\ NoDup (b_spaces b1))).
    { destruct c as [x|n f c|n f|s|]; cbn [bcall_result]; intros b1 H.
      - apply with_budget_ok in H as (B & ->). unfold accepts, after. cbn. rewrite B. cbn. split; [reflexivity|]. split; [reflexivity|]. split; [exact N|exact NS].
      - apply with_private_ok in H as (CH & I & N1 & N2 & f' & FF & ->). unfold accepts, after. cbn [b_budget b_private b_public b_spaces]. split; [|split].
        + unfold budgets, publics, spaces. cbn [flat_map app]. fold (budgets l) (publics l) (spaces l). unfold privates. cbn [flat_map app]. fold (privates l).
          rewrite dkeys_app. cbn [dkeys map fst]. fold (dkeys (privates l)). rewrite <- (app_assoc (dkeys (b_private b)) [n]). cbn [app].
          split; intros (A1 & A2 & A3 & A4 & A5 & A6).
          * split; [exact A1|]. split; [exact A2|]. split; [inversion A3; assumption|]. split; [intros m g k J; apply (A4 m g k); right; exact J|]. split; assumption.
          * split; [exact A1|]. split; [exact A2|]. split; [constructor; assumption|]. split; [intros m g k [J|J]; [injection J as <- <- <-; eauto|eauto]|]. split; assumption.
        + assert (SF : stored f = f') by (unfold stored; now rewrite FF). cbn. rewrite SF. f_equal. now rewrite <- app_assoc.
        + cbn. split; [|exact NS]. rewrite dkeys_app. cbn. apply nodup_insert; assumption.
      - apply with_public_ok in H as (I & N1 & N2 & f' & FF & ->). unfold accepts, after. cbn [b_budget b_private b_public b_spaces]. split; [|split].
        + unfold budgets, privates, spaces. cbn [flat_map app]. fold (budgets l) (privates l) (spaces l). unfold publics. cbn [flat_map app]. fold (publics l).
          rewrite dkeys_app. cbn [dkeys map fst]. fold (dkeys (publics l)). rewrite <- (app_assoc (dkeys (b_public b)) [n]). cbn [app].
          split; intros (A1 & A2 & A3 & A4 & A5 & A6).
          * split; [exact A1|]. split; [exact A2|]. split; [apply Forall_app in A3 as (A31 & A32); inversion A32; apply Forall_app; auto|]. split; [exact A4|]. split; [intros m g J; apply (A5 m g); right; exact J|assumption].
          * split; [exact A1|]. split; [exact A2|]. split; [apply Forall_app in A3 as (A31 & A32); apply Forall_app; auto|]. split; [exact A4|]. split; [intros m g [J|J]; [injection J as <- <-; eauto|eauto]|assumption].
        + assert (SF : stored f = f') by (unfold stored; now rewrite FF). cbn. rewrite SF. f_equal. now rewrite <- app_assoc.
        + cbn. split; [|exact NS]. rewrite dkeys_app. cbn. apply nodup_insert_r; assumption.
      - apply with_space_ok in H as (I & NI & ->). unfold accepts, after. cbn [b_budget b_private b_public b_spaces]. split; [|split].
        + unfold budgets, privates, publics. cbn [flat_map app]. fold (budgets l) (privates l) (publics l). unfold spaces. cbn [flat_map app]. fold (spaces l). rewrite <- (app_assoc (b_spaces b) [s]). cbn [app].
          split; intros (A1 & A2 & A3 & A4 & A5 & A6).
          * split; [exact A1|]. split; [exact A2|]. split; [rewrite app_assoc in *; apply Forall_app in A3 as (A31 & A32); inversion A32; apply Forall_app; auto|]. split; [exact A4|]. split; [exact A5|assumption].
          * split; [exact A1|]. split; [exact A2|]. split; [rewrite app_assoc in *; apply Forall_app in A3 as (A31 & A32); apply Forall_app; auto|]. split; [exact A4|]. split; [exact A5|assumption].
        + cbn. f_equal. now rewrite <- app_assoc.
        + cbn. split; [exact N|]. apply NoDup_snoc; assumption.
      - exfalso. apply NB. left. reflexivity. }
    split.
    + intros H. apply bind_ok in H as (b1 & H1 & H). destruct (ST b1 H1) as (S1 & S2 & S3 & S4). apply (IH b1 b' NB' S3 S4) in H as (A & ->). split; [apply S1, A|now rewrite S2].
    + intros (A & ->). assert (X : exists b1, bcall_result E b c = Ok b1).
      { destruct A as (A1 & A2 & A3 & A4 & A5 & A6). destruct c as [x|n f c|n f|s|]; cbn [bcall_result].
        - eexists. apply with_budget_ok. split; [|reflexivity]. cbn in A1. destruct (b_budget b); [cbn in A1; lia|reflexivity].
        - destruct (A4 n f c (or_introl eq_refl)) as (CH & f' & FF). eexists. apply with_private_ok. split; [exact CH|]. cbn in A3. inversion A3; subst. split; [assumption|].
          cbn [privates flat_map app dkeys map fst] in A2. rewrite <- app_assoc in A2. cbn [app] in A2. apply NoDup_remove_2 in A2. rewrite !in_app_iff in A2.
          split; [tauto|]. split; [|eauto]. intros J. apply A2. right. right. left. exact J.
        - destruct (A5 n f (or_introl eq_refl)) as (f' & FF). eexists. apply with_public_ok. apply Forall_app in A3 as (A31 & A32). cbn in A32. inversion A32; subst. split; [assumption|].
          cbn [publics flat_map app dkeys map fst] in A2. rewrite app_assoc in A2. apply NoDup_remove_2 in A2. rewrite !in_app_iff in A2. cbn in A2. split; [tauto|]. split; [tauto|eauto].
        - eexists. apply with_space_ok. rewrite app_assoc in A3. apply Forall_app in A3 as (A31 & A32). cbn in A32. inversion A32; subst. split; [assumption|].
          cbn in A6. apply NoDup_remove_2 in A6. rewrite in_app_iff in A6. split; [tauto|reflexivity].
        - exfalso. apply NB. left. reflexivity. }
      destruct X as (b1 & H1). rewrite H1. cbn [bind]. destruct (ST b1 H1) as (S1 & S2 & S3 & S4). apply (IH b1 _ NB' S3 S4). split; [apply S1, A|exact S2].
Qed.
End Calls.

(** ** The tables of a built session *)

Lemma source_fine l2 l f c : coerced f -> fits f c -> fine_table (source_table l2 l f c).
Proof.
  intros C F. assert (K : forall n, In n (dkeys (v_dom (source_table l2 l f c))) <-> In n (columns f)).
  { intros n. cbn [v_dom source_table]. destruct c; try apply plain_dom_keys. unfold id_dom. destruct (space_nullable l id_space); [|apply plain_dom_keys].
    destruct (dget id_column (plain_dom f)) eqn:G; [|apply plain_dom_keys]. apply dget_In in G. rewrite dkeys_dset.
    replace (smem id_column (dkeys (plain_dom f))) with true; [apply plain_dom_keys|]. symmetry. apply smem_In, in_map_iff. eexists. split; [|exact G]. reflexivity. }
  split.
  - cbn [v_dom source_table]. destruct c; try apply plain_dom_nodup. unfold id_dom. destruct (space_nullable l id_space); [|apply plain_dom_nodup]. destruct (dget _ _); [apply NoDup_dset|]; apply plain_dom_nodup.
  - unfold table_schema. destruct (core_to_analytics_total (v_dom (source_table l2 l f c))) as (a & A). rewrite A. cbn [bind]. pose proof (core_to_analytics_same _ _ A) as AK.
    assert (KA : forall n, In n (dkeys a) <-> In n (columns f)). { intros n. rewrite <- K, <- AK. now rewrite dkeys_core_cols. }
    eexists. apply mk_schema_ok. split; [rewrite KA; apply (coerced_supported f C)|]. split; [|split; [|reflexivity]].
    + intros x. destruct c; cbn; intros H; try discriminate. injection H as <-. apply KA, F.
    + intros x. destruct c; cbn; intros H; try discriminate. injection H as <-. apply KA, F.
Qed.
Lemma accountant_valid x : valid x -> valid (accountant_budget x).
Proof.
  destruct x as [e|e d|r]; cbn [accountant_budget]; auto. intros V. destruct (is_infinite (Approx e d)); [|exact V]. cbn. repeat split; auto; discriminate.
Qed.
