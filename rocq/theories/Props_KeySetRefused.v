(** C64: malformed KeySets are refused.

    The specification is [required] in KeySetRefused.v: the documented requirements of each
    operation on KeySets. *)
From Coq Require Import String Bool Arith ZArith Lia List.
From Verif Require Import Prelude Value KeySet KeySetSem KeySetRules KeySetApi KeySetTotalApi KeySetSchema KeySetSchemaApi
  KeySetRefused Props_KeySet.
Import ListNotations.
Local Open Scope string_scope.

(** A program that breaks a requirement anywhere raises an exception. *)
Theorem C64_malformed_refused :
  forall (W : world) (e : kexpr),
    concrete e = true -> frames_ok e -> ~ required W e -> exists x, eval W e = Err x.
Proof.
  intros W e C F N. destruct (eval W e) as [k|x] eqn:E; [|eauto]. exfalso. apply N. eapply eval_required; eassumption.
Qed.

(** Where no join follows on a join and conditions are strings, the requirements are also
    sufficient (see C10 for chains of joins): [kvalid] adds to [required] only that. *)
Theorem C64_refused_only_if_malformed_partial :
  forall (W : world) (D : oracle) (e : kexpr),
    usable W D e -> kvalid W e -> concrete e = true ->
    required W e /\ exists k, eval W e = Ok k.
Proof.
  intros W D e U V C. destruct (C10_optimizing_succeeds_partial W D e U V C) as (k & E & _).
  split; [|eauto]. eapply eval_required; [exact C|eapply usable_frames, U|exact E].
Qed.

(** The keys of a plan are unknown: they cannot be removed; and a plan needs columns to detect. *)
Theorem C64_plans_cannot_be_removed :
  forall (W : world) (a b : kexpr) (y k : keyset),
    eval W b = Ok y -> ks_plan y = true -> eval W (ESub a b) <> Ok k /\ eval W (EDetect []) <> Ok k.
Proof.
  intros W a b y k Eb P. split; [|discriminate]. cbn [eval]. intros E. apply bind_ok in E as (x & _ & E).
  rewrite Eb in E. cbn [bind] in E. unfold ks_sub in E. apply bind_ok in E as (o & Eo & _).
  apply mkSubtract_ok in Eo as (_ & P' & _). unfold ks_plan in P. rewrite P in P'. discriminate.
Qed.
Example C64_plan_case : exists y, eval W0 (EMul (EDetect ["d"]) cvals) = Ok y /\ ks_plan y = true.
Proof. eexists. split; vm_compute; reflexivity. Qed.

(** One program for each requirement, and a larger one that breaks a requirement deep inside. *)
Definition one (v : value) (c : string) : kexpr := ETuples [[v]] [c].
Definition malformed : list kexpr :=
  [ ETuples [[VInt 1; VInt 2]] ["a"; "a"];
    one (VInt 1) "";
    ETuples [[VInt 1]] ["a"; "b"];
    ETuples [[]] [];
    ETuples [] ["a"];
    ETuples [[VInt 1]; [VStr "x"]] ["a"];
    one VNull "a";
    one (VFloat FPInf) "a";
    EDict [("a", [VInt 1]); ("b", [VNull])];
    EMul (one (VInt 1) "a") (one (VInt 2) "a");
    EJoin (one (VInt 1) "a") (one (VInt 1) "b");
    EJoin (one (VInt 1) "a") (one (VStr "1") "a");
    EUnion (one (VInt 1) "a") (one (VInt 1) "b");
    EUnion (one (VInt 1) "a") (one (VStr "1") "a");
    ESub (one (VInt 1) "a") (EMul (one (VInt 1) "a") (one (VInt 1) "b"));
    EProj (one (VInt 1) "a") [];
    EProj (one (VInt 1) "a") ["a"; "a"];
    EProj (one (VInt 1) "a") ["b"];
    EFilter (one (VInt 1) "a") (CondStr "");
    EFilter (EProj (ESub (EMul tab (EProj cvals ["d"])) bvals) ["a"]) (CondStr "a = 2") ].
Example C64_cases :
  Forall (fun e => concrete e = true /\ frames_ok e /\ exists x, eval W0 e = Err x) malformed
  /\ usable W0 D0 sample /\ kvalid W0 sample /\ required W0 sample.
Proof.
  split.
  - repeat (apply Forall_cons;
      [split; [reflexivity|]; split; [cbn; repeat split; repeat constructor; cbn; intuition discriminate|eexists; vm_compute; reflexivity]|]).
    apply Forall_nil.
  - destruct C10_example as (U & V & C). split; [exact U|]. split; [exact V|].
    apply (C64_refused_only_if_malformed_partial W0 D0 sample U V C).
Qed.

Print Assumptions C64_malformed_refused.
Print Assumptions C64_refused_only_if_malformed_partial.
Print Assumptions C64_plans_cannot_be_removed.
