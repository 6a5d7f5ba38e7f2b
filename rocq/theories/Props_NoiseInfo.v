(** Property C56: what is reported about the noise of a measurement. *)
From Coq Require Import String Bool Arith ZArith QArith Lia List.
From Verif Require Import Prelude NoiseInfo.
Import ListNotations.
Local Open Scope string_scope.
Local Open Scope nat_scope.

(** ** Specification *)
(** What an object consists of, in order. *)
Definition parts (o : pobj) : list pobj :=
  match o with
  | PMeasure _ d | PObject d | PDict d => map snd d
  | PList l | PTuple l | PSet l => l
  | PAtom | PString _ | PExact _ | PFrame _ => []
  end.
(** The object at a position: the path gives the number of the part at each level. *)
Inductive at_position : pobj -> list nat -> pobj -> Prop :=
| AtHere o : at_position o [] o
| AtPart o n x p y : nth_error (parts o) n = Some x -> at_position x p y -> at_position o (n :: p) y.
(** The noise mechanisms of tmlt.core, and the attribute that says how much noise they add. *)
Inductive adds_noise : string -> mechanism -> string -> Prop :=
| NLaplace : adds_noise "AddLaplaceNoise" LAPLACE "_scale"
| NGeometric : adds_noise "AddGeometricNoise" GEOMETRIC "_alpha"
| NDiscrete : adds_noise "AddDiscreteGaussianNoise" DISCRETE_GAUSSIAN "_sigma_squared"
| NGaussian : adds_noise "AddGaussianNoise" GAUSSIAN "_sigma_squared"
| NQuantile : adds_noise "NoisyQuantile" EXPONENTIAL "_epsilon".
(** [o] adds noise of the kind [m] with parameter [q]. *)
Definition noise_of (o : pobj) (m : mechanism) (q : Q) : Prop :=
  exists cls attr fields, o = PMeasure cls fields /\ adds_noise cls m attr /\ dget attr fields = Some (PExact q).
(** Objects as tmlt.core makes them: noise mechanisms have their parameter; no measurement has an
    attribute called "name", and no other dictionary one whose value is the name of a mechanism;
    sets hold simple values. *)
Inductive plain : pobj -> Prop :=
| Plain o : Forall plain (parts o) ->
    match o with
    | PMeasure cls d => ~ In "name" (dkeys d) /\ forall m attr, adds_noise cls m attr -> exists q, dget attr d = Some (PExact q)
    | PObject d | PDict d => match dget "name" d with Some (PString s) => forall m attr, ~ adds_noise s m attr | Some (PFrame _) => False | _ => True end
    | PSet l => Forall (fun x => match x with PAtom | PString _ | PExact _ | PFrame _ => True | _ => False end) l
    | _ => True
    end -> plain o.
(** Positions in the order in which a reader meets them. *)
Fixpoint before (p p' : list nat) : Prop :=
  match p, p' with
  | x :: p, y :: p' => x < y \/ (x = y /\ before p p')
  | _, _ => False
  end.

(** ** Proofs *)
Lemma known_spec n m a : known n = Some (m, a) <-> adds_noise n m a.
Proof.
  unfold known. split.
  - repeat (match goal with |- context [if String.eqb n ?s then _ else _] => destruct (String.eqb_spec n s) as [->|] end; [intros H; injection H as <- <-; constructor|]). discriminate.
  - intros H. destruct H; reflexivity.
Qed.
Section Induct.
Variable P : pobj -> Prop.
Hypothesis H : forall o, Forall P (parts o) -> P o.
Fixpoint pobj_parts (o : pobj) : P o :=
  let dicts := fix dicts (d : dict pobj) : Forall P (map snd d) := match d with [] => Forall_nil _ | (k, v) :: d => Forall_cons _ (pobj_parts v) (dicts d) end in
  let lists := fix lists (l : list pobj) : Forall P l := match l with [] => Forall_nil _ | v :: l => Forall_cons _ (pobj_parts v) (lists l) end in
  match o with
  | PAtom => H PAtom (Forall_nil _) | PString s => H (PString s) (Forall_nil _) | PExact q => H (PExact q) (Forall_nil _) | PFrame c => H (PFrame c) (Forall_nil _)
  | PMeasure c d => H (PMeasure c d) (dicts d) | PObject d => H (PObject d) (dicts d) | PDict d => H (PDict d) (dicts d)
  | PList l => H (PList l) (lists l) | PTuple l => H (PTuple l) (lists l) | PSet l => H (PSet l) (lists l)
  end.
End Induct.

Section Noise.
Variables (to_float : Q -> Q) (frame_text : list string -> string).
Notation gi := (get_info to_float frame_text).
Notation nf := noise_from_info.
Definition entries_info (d : dict pobj) : res (dict info) := mapM (fun p => let* x := gi (snd p) in Ok (fst p, x)) d.
Lemma entries_eq d : (fix entries (l : dict pobj) : res (dict info) :=
  match l with [] => Ok [] | (k, v) :: l => let* x := gi v in let* r := entries l in Ok ((k, x) :: r) end) d = entries_info d.
Proof. unfold entries_info. induction d as [|(k, v) d IH]; [reflexivity|]. cbn [mapM fst snd]. rewrite IH. destruct (gi v); reflexivity. Qed.
Lemma each_eq l : (fix each (l : list pobj) : res (list info) :=
  match l with [] => Ok [] | v :: l => let* x := gi v in let* r := each l in Ok (x :: r) end) l = mapM gi l.
Proof. induction l as [|v l IH]; [reflexivity|]. cbn [mapM]. rewrite IH. reflexivity. Qed.
Definition all_noise (l : list info) : res (list (mechanism * info)) := let* r := mapM nf l in Ok (concat r).
Lemma values_eq d : (fix values (d : dict info) : res (list (mechanism * info)) :=
  match d with [] => Ok [] | (_, v) :: d => let* x := nf v in let* r := values d in Ok (x ++ r)%list end) d = all_noise (map snd d).
Proof.
  unfold all_noise. induction d as [|(k, v) d IH]; [reflexivity|]. cbn [map snd mapM]. destruct (nf v) as [x|e]; [|reflexivity]. cbn [bind]. rewrite IH.
  destruct (mapM nf (map snd d)); reflexivity.
Qed.
Lemma each_noise_eq l : (fix each (l : list info) : res (list (mechanism * info)) :=
  match l with [] => Ok [] | v :: l => let* x := nf v in let* r := each l in Ok (x ++ r)%list end) l = all_noise l.
Proof.
  unfold all_noise. induction l as [|v l IH]; [reflexivity|]. cbn [mapM]. destruct (nf v) as [x|e]; [|reflexivity]. cbn [bind]. rewrite IH. destruct (mapM nf l); reflexivity.
Qed.
(** The positions reported, with what is reported. *)
Definition reported (o : pobj) (l : list (list nat * (mechanism * info))) : Prop :=
  Forall (fun x => exists o' q, at_position o (fst x) o' /\ noise_of o' (fst (snd x)) q /\ snd (snd x) = IFloat (to_float q)) l
  /\ (forall i j, i < j -> forall x y, nth_error l i = Some x -> nth_error l j = Some y -> before (fst x) (fst y))
  /\ forall p o' m q, at_position o p o' -> noise_of o' m q -> exists p1 p2, p = (p1 ++ p2)%list /\ In p1 (map fst l).
Definition good_report (o : pobj) : Prop := exists i l, gi o = Ok i /\ nf i = Ok (map snd l) /\ reported o l.

Fixpoint shifted (n : nat) (ls : list (list (list nat * (mechanism * info)))) : list (list nat * (mechanism * info)) :=
  match ls with [] => [] | l :: ls => (map (fun x => (n :: fst x, snd x)) l ++ shifted (S n) ls)%list end.
Lemma shifted_snd ls : forall n, map snd (shifted n ls) = concat (map (map snd) ls).
Proof. induction ls as [|l ls IH]; intros n; [reflexivity|]. cbn [shifted map concat]. rewrite map_app, map_map, IH. reflexivity. Qed.
Lemma shifted_in ls : forall n x, In x (shifted n ls) <-> exists i l y, nth_error ls i = Some l /\ In y l /\ x = (n + i :: fst y, snd y).
Proof.
  induction ls as [|l ls IH]; intros n x; cbn [shifted].
  - split; [intros []|]. intros (i & l & y & N & _). destruct i; discriminate.
  - rewrite in_app_iff, in_map_iff, IH. split.
    + intros [(y & <- & I)|(i & l0 & y & N & I & ->)].
      * exists 0, l, y. split; [reflexivity|]. split; [exact I|]. now rewrite Nat.add_0_r.
      * exists (S i), l0, y. split; [exact N|]. split; [exact I|]. now rewrite Nat.add_succ_r.
    + intros (i & l0 & y & N & I & ->). destruct i as [|i]; cbn in N.
      * injection N as ->. left. exists y. split; [now rewrite Nat.add_0_r|exact I].
      * right. exists i, l0, y. split; [exact N|]. split; [exact I|]. now rewrite Nat.add_succ_r.
Qed.
Lemma shifted_before ls : (forall l, In l ls -> forall i j, i < j -> forall x y, nth_error l i = Some x -> nth_error l j = Some y -> before (fst x) (fst y)) ->
  forall n i j, i < j -> forall x y, nth_error (shifted n ls) i = Some x -> nth_error (shifted n ls) j = Some y -> before (fst x) (fst y).
Proof.
  induction ls as [|l ls IH]; intros A n i j L x y X Y; cbn [shifted] in *; [destruct i; discriminate|].
  set (h := map (fun x => (n :: fst x, snd x)) l) in *. assert (LH : length h = length l) by apply map_length.
  destruct (Nat.lt_ge_cases j (length h)) as [J|J].
  - rewrite nth_error_app1 in X by lia. rewrite nth_error_app1 in Y by lia. unfold h in X, Y. rewrite nth_error_map in X, Y.
    destruct (nth_error l i) as [x0|] eqn:EX; [|discriminate]. destruct (nth_error l j) as [y0|] eqn:EY; [|discriminate]. injection X as <-. injection Y as <-. cbn. right. split; [reflexivity|]. eapply (A l); [left; reflexivity|exact L|exact EX|exact EY].
  - rewrite nth_error_app2 in Y by exact J. destruct (Nat.lt_ge_cases i (length h)) as [I|I].
    + rewrite nth_error_app1 in X by exact I. unfold h in X. rewrite nth_error_map in X. destruct (nth_error l i) as [x0|]; [|discriminate]. injection X as <-.
      apply nth_error_In, shifted_in in Y as (k & l0 & y0 & _ & _ & ->). cbn. left. lia.
    + rewrite nth_error_app2 in X by exact I. eapply (IH (fun l0 I0 => A l0 (or_intror I0)) (S n) (i - length h) (j - length h)); [lia|exact X|exact Y].
Qed.
Lemma collect l : Forall good_report l -> exists is ls, mapM gi l = Ok is /\ mapM nf is = Ok (map (map snd) ls) /\ Forall2 reported l ls.
Proof.
  induction 1 as [|o l (i & r & G & N & R) F (is & ls & A & B & C)]; [exists [], []; repeat split; constructor|].
  exists (i :: is), (r :: ls). cbn [mapM map]. rewrite G, A. cbn [bind mapM]. rewrite N, B. repeat split. constructor; assumption.
Qed.
Lemma forall2_nth {A B} (R : A -> B -> Prop) l l' : Forall2 R l l' -> forall n y, nth_error l' n = Some y -> exists x, nth_error l n = Some x /\ R x y.
Proof. induction 1; intros n y0 N; [destruct n; discriminate|]. destruct n; cbn in *; [injection N as ->; eauto|auto]. Qed.
Lemma forall2_nth' {A B} (R : A -> B -> Prop) l l' : Forall2 R l l' -> forall n x, nth_error l n = Some x -> exists y, nth_error l' n = Some y /\ R x y.
Proof. induction 1; intros n y0 N; [destruct n; discriminate|]. destruct n; cbn in *; [injection N as ->; eauto|auto]. Qed.
Lemma report_parts o ls : (forall m q, ~ noise_of o m q) -> Forall2 reported (parts o) ls -> reported o (shifted 0 ls).
Proof.
  intros NN F. split; [|split].
  - apply Forall_forall. intros x I. apply shifted_in in I as (i & l & y & N & I & ->). destruct (forall2_nth _ _ _ F i l N) as (o1 & N1 & (A & _ & _)).
    rewrite Forall_forall in A. destruct (A y I) as (o' & q & P & Q & R). exists o', q. cbn. split; [|split; assumption]. econstructor; eassumption.
  - apply shifted_before. intros l I. apply In_nth_error in I as (n & N). destruct (forall2_nth _ _ _ F n l N) as (o1 & _ & (_ & B & _)). exact B.
  - intros p o' m q AP NO. destruct AP as [o|o n x p y N AP]; [destruct (NN _ _ NO)|]. destruct (forall2_nth' _ _ _ F n x N) as (l & NL & (_ & _ & C)).
    destruct (C p y m q AP NO) as (p1 & p2 & -> & I). exists (n :: p1), p2. split; [reflexivity|]. apply in_map_iff in I as (z & <- & I). apply in_map_iff. exists (n :: fst z, snd z). split; [reflexivity|].
    apply shifted_in. exists n, l, z. auto.
Qed.
Lemma dset_fresh {V} k (v : V) d : ~ In k (dkeys d) -> dset k v d = (d ++ [(k, v)])%list.
Proof.
  induction d as [|(k', v') d IH]; intros N; [reflexivity|]. cbn [dkeys map fst] in N. cbn. destruct (String.eqb_spec k k') as [->|]; [destruct N; left; reflexivity|]. f_equal. apply IH. intros I. apply N. right. exact I.
Qed.
Lemma entries_snd d : forall is, mapM gi (map snd d) = Ok is -> exists ds, entries_info d = Ok ds /\ dkeys ds = dkeys d /\ map snd ds = is
  /\ forall k, dget k ds = match dget k d with Some v => match gi v with Ok i => Some i | Err _ => None end | None => None end.
Proof.
  unfold entries_info. induction d as [|(k, v) d IH]; intros is H; cbn [map mapM snd fst] in *; [injection H as <-; exists []; auto|].
  apply bind_ok in H as (i & G & H). apply bind_ok in H as (is0 & A & H). injection H as <-. destruct (IH _ A) as (ds & B & C & D & F). exists ((k, i) :: ds). rewrite G. cbn [bind]. rewrite B. cbn [bind].
  split; [reflexivity|]. split; [cbn; f_equal; exact C|]. split; [cbn; f_equal; exact D|]. intros k0. cbn [dget]. destruct (String.eqb k0 k); [rewrite G; reflexivity|apply F].
Qed.
Lemma plain_report o : plain o -> good_report o.
Proof.
  induction o as [o IH] using pobj_parts. intros PL. inversion PL as [o0 FP C]; subst o0. 
  assert (FG : Forall good_report (parts o)). { rewrite Forall_forall in *. intros x I. apply IH; [exact I|apply FP, I]. }
  destruct (collect _ FG) as (is & ls & A & B & F).
  assert (CC : all_noise is = Ok (map snd (shifted 0 ls))) by (unfold all_noise; rewrite B; cbn [bind]; now rewrite shifted_snd).
  destruct o as [|s|q|cols|cls d|d|d|l|l|l]; cbn [parts] in *.
  1-4: inversion F; subst; eexists _, []; split; [reflexivity|]; split; [reflexivity|]; apply (report_parts _ []); [intros m0 q0 (? & ? & ? & E & _); discriminate|exact F].
  - destruct C as (NN & AD). destruct (entries_snd d is A) as (ds & E & KE & SE & GE).
    assert (GI : gi (PMeasure cls d) = Ok (IDict (ds ++ [("name", IString cls)])%list)) by (cbn [get_info]; rewrite entries_eq, E; cbn [bind]; rewrite dset_fresh by (rewrite KE; exact NN); reflexivity).
    assert (NG : dget "name" (ds ++ [("name", IString cls)])%list = Some (IString cls)).
    { clear - NN KE. rewrite <- KE in NN. clear KE. induction ds as [|(k, v) ds IH]; [reflexivity|]. cbn [dkeys map fst] in NN. cbn [dget app]. destruct (String.eqb_spec "name" k) as [<-|]; [destruct NN; now left|]. apply IH. intros I. apply NN. now right. }
    destruct (known cls) as [(m, attr)|] eqn:KN.
    + pose proof KN as AN. apply known_spec in AN. destruct (AD m attr AN) as (q & DQ).
      assert (PG : dget attr (ds ++ [("name", IString cls)])%list = Some (IFloat (to_float q))).
      { pose proof (GE attr) as G1. rewrite DQ in G1. cbn [get_info] in G1. clear - G1. induction ds as [|(k, v) ds IH]; [discriminate|]. cbn [dget app] in *. destruct (String.eqb attr k); auto. }
      eexists _, [([], (m, IFloat (to_float q)))]. split; [exact GI|]. split; [cbn [noise_from_info]; rewrite NG, KN, PG; reflexivity|]. split; [|split].
      * constructor; [|constructor]. cbn. exists (PMeasure cls d), q. split; [constructor|]. split; [|reflexivity]. exists cls, attr, d. auto.
      * intros i j L x y X Y. destruct i, j; cbn in *; try lia; destruct j; discriminate.
      * intros p o' m0 q0 _ _. exists [], p. split; [reflexivity|now left].
    + eexists _, (shifted 0 ls). split; [exact GI|]. split.
      * cbn [noise_from_info]. rewrite NG, KN, values_eq, map_app, SE. cbn [map snd]. unfold all_noise.
        assert (MA : mapM nf (is ++ [IString cls])%list = Ok (map (map snd) ls ++ [[]])%list).
        { clear - B. revert B. generalize (map (map snd) ls). induction is as [|i is IH]; intros r B; cbn [mapM app] in *; [injection B as <-; reflexivity|].
          apply bind_ok in B as (x & N & B). apply bind_ok in B as (r0 & B & E). injection E as <-. rewrite N. cbn [bind]. rewrite (IH _ B). reflexivity. }
        rewrite MA. cbn [bind]. rewrite concat_app. cbn [concat app]. rewrite !app_nil_r, shifted_snd. reflexivity.
      * apply report_parts; [|exact F]. intros m q (cls' & attr & f & EQ & AN & _). injection EQ as <- <-. apply known_spec in AN. congruence.
  - destruct (entries_snd d is A) as (ds & E & KE & SE & GE). eexists _, (shifted 0 ls). split; [cbn [get_info]; rewrite entries_eq, E; reflexivity|]. split.
    + cbn [noise_from_info]. assert (NK : match dget "name" ds with Some (IString n) => known n | _ => None end = None).
      { rewrite GE. destruct (dget "name" d) as [v|]; [|reflexivity]. destruct v as [|s|q|cols|? ?|?|?|?|?|?]; try reflexivity; cbn [get_info]; try (now destruct C).
        all: try (destruct (known s) as [(m, a)|] eqn:K0; [destruct (C m a); apply known_spec, K0|reflexivity]).
        all: match goal with |- context [bind ?r _] => destruct r end; cbn [bind]; try reflexivity. all: try (destruct (raise_if _ _); reflexivity). }
      rewrite NK, values_eq, SE. exact CC.
    + apply report_parts; [|exact F]. intros m q (? & ? & ? & EQ & _). discriminate.
  - destruct (entries_snd d is A) as (ds & E & KE & SE & GE). eexists _, (shifted 0 ls). split; [cbn [get_info]; rewrite entries_eq, E; reflexivity|]. split.
    + cbn [noise_from_info]. assert (NK : match dget "name" ds with Some (IString n) => known n | _ => None end = None).
      { rewrite GE. destruct (dget "name" d) as [v|]; [|reflexivity]. destruct v as [|s|q|cols|? ?|?|?|?|?|?]; try reflexivity; cbn [get_info]; try (now destruct C).
        all: try (destruct (known s) as [(m, a)|] eqn:K0; [destruct (C m a); apply known_spec, K0|reflexivity]).
        all: match goal with |- context [bind ?r _] => destruct r end; cbn [bind]; try reflexivity. all: try (destruct (raise_if _ _); reflexivity). }
      rewrite NK, values_eq, SE. exact CC.
    + apply report_parts; [|exact F]. intros m q (? & ? & ? & EQ & _). discriminate.
  - eexists _, (shifted 0 ls). split; [cbn [get_info]; rewrite each_eq, A; reflexivity|]. split; [cbn [noise_from_info]; rewrite each_noise_eq; exact CC|].
    apply report_parts; [|exact F]. intros m q (? & ? & ? & EQ & _). discriminate.
  - eexists _, (shifted 0 ls). split; [cbn [get_info]; rewrite each_eq, A; reflexivity|]. split; [cbn [noise_from_info]; rewrite each_noise_eq; exact CC|].
    apply report_parts; [|exact F]. intros m q (? & ? & ? & EQ & _). discriminate.
  - assert (HA : forallb hashable is = true).
    { clear - A C. revert is A. induction C as [|v l CV C IH]; intros is A; cbn [mapM] in A; [injection A as <-; reflexivity|]. apply bind_ok in A as (i & G & A). apply bind_ok in A as (r & R & A). injection A as <-. cbn [forallb].
      rewrite (IH r R), andb_true_r. destruct v; try contradiction; cbn in G; injection G as <-; reflexivity. }
    eexists _, (shifted 0 ls). split; [cbn [get_info]; rewrite each_eq, A; cbn [bind]; rewrite HA; reflexivity|]. split; [cbn [noise_from_info]; rewrite each_noise_eq; exact CC|].
    apply report_parts; [|exact F]. intros m q (? & ? & ? & EQ & _). discriminate.
Qed.
End Noise.

(** ** C56 *)
(** Everything that is reported is the noise of a part of the measurement, with its parameter;
    parts are reported once and in order; and every noise mechanism anywhere in the measurement
    is reported, unless it is inside of another one that is. *)
Theorem C56_noise_is_reported : forall to_float frame_text o, plain o ->
  exists l, noise_from_measurement to_float frame_text o = Ok (map snd l)
    /\ Forall (fun x => exists o' q, at_position o (fst x) o' /\ noise_of o' (fst (snd x)) q /\ snd (snd x) = IFloat (to_float q)) l
    /\ (forall i j, i < j -> forall x y, nth_error l i = Some x -> nth_error l j = Some y -> before (fst x) (fst y))
    /\ (forall p o' m q, at_position o p o' -> noise_of o' m q -> exists p1 p2, p = (p1 ++ p2)%list /\ In p1 (map fst l)).
Proof.
  intros f t o PL. destruct (plain_report f t o PL) as (i & l & G & N & A & B & C). exists l. split; [unfold noise_from_measurement; rewrite G; exact N|]. auto.
Qed.
Print Assumptions C56_noise_is_reported.
(** Quantiles of reported noise are those of the class of the object that adds it, at its parameter. *)
Theorem C56_quantiles_of_the_right_class : forall to_float frame_text o l, plain o ->
  noise_from_measurement to_float frame_text o = Ok l ->
  Forall (fun x => exists p cls fields m attr q, at_position o p (PMeasure cls fields) /\ adds_noise cls m attr /\ dget attr fields = Some (PExact q)
    /\ forall core pr, inverse_cdf core x pr = core cls (IFloat (to_float q)) pr) l.
Proof.
  intros f t o l PL H. destruct (C56_noise_is_reported f t o PL) as (l' & N & A & _). rewrite N in H. injection H as <-.
  apply Forall_forall. intros x I. apply in_map_iff in I as ((p & y) & <- & I). rewrite Forall_forall in A.
  destruct (A _ I) as (o' & q & P & (cls & attr & fields & -> & AN & D) & E). cbn [fst snd] in *.
  exists p, cls, fields, (fst y), attr, q. split; [exact P|]. split; [exact AN|]. split; [exact D|].
  intros core pr. unfold inverse_cdf. rewrite E. f_equal. destruct AN; reflexivity.
Qed.
Print Assumptions C56_quantiles_of_the_right_class.

(** Non-vacuity: a count per key and a quantile, composed. *)
Definition composed : pobj :=
  PMeasure "Composition" [("_hint", PAtom); ("_measurements",
    PList [PMeasure "ChainTM" [("_transformation", PMeasure "GroupBy" [("_group_keys", PFrame ["name"])]);
                               ("_measurement", PMeasure "AddNoiseToColumn" [("_measurement", PMeasure "AddNoiseToSeries" [("_noise_measurement", PMeasure "AddGeometricNoise" [("_alpha", PExact (3 # 2))])])])];
           PMeasure "Applied" [("_options", PDict [("name", PString "quantile")]); ("_columns", PSet [PString "a"; PString "b"]); ("_q", PTuple [PMeasure "NoisyQuantile" [("_quantile", PAtom); ("_epsilon", PExact 1)]])]])].
Example C56_case : plain composed
  /\ noise_from_measurement (fun q => q) (fun _ => "frame") composed = Ok [(GEOMETRIC, IFloat (3 # 2)); (EXPONENTIAL, IFloat 1)]
  /\ at_position composed [1; 0; 1; 0; 0] (PMeasure "AddGeometricNoise" [("_alpha", PExact (3 # 2))]).
Proof.
  split; [|split; [vm_compute; reflexivity|repeat (econstructor; cbn; [reflexivity|]); constructor]].
  unfold composed.
  repeat match goal with
  | |- plain _ => constructor
  | |- Forall _ _ => constructor
  | |- _ /\ _ => split
  | |- ~ _ => cbn; intuition discriminate
  | |- forall m attr, adds_noise _ m attr -> _ => let A := fresh in intros ? ? A; inversion A; subst; eexists; reflexivity
  | |- _ => exact I
  | |- match _ with _ => _ end => cbn
  | |- forall m attr, ~ _ => let A := fresh in intros ? ? A; inversion A
  end.
Qed.
(** The guard on names is needed: a dictionary with the entry "name" may be taken for a noise
    mechanism, and then the report is an exception, or leaves out what is beside it. *)
Theorem C56_names_in_dictionaries_refuted :
  (exists o, Forall plain (parts o) /\ noise_from_measurement (fun q => q) (fun _ => "") o = Err KeyError)
  /\ exists o x m q, at_position o [0; 0] x /\ noise_of x m q /\ noise_from_measurement (fun q => q) (fun _ => "") o = Ok [(LAPLACE, IAtom)].
Proof.
  split.
  - exists (PDict [("name", PString "AddLaplaceNoise")]). split; [|reflexivity]. repeat constructor.
  - exists (PList [PDict [("m", PMeasure "AddGeometricNoise" [("_alpha", PExact 1)]); ("name", PString "AddLaplaceNoise"); ("_scale", PAtom)]]), (PMeasure "AddGeometricNoise" [("_alpha", PExact 1)]), GEOMETRIC, 1%Q.
    split; [repeat (econstructor; cbn; [reflexivity|]); constructor|]. split; [|reflexivity]. eexists _, _, _. split; [reflexivity|]. split; constructor.
Qed.
Print Assumptions C56_names_in_dictionaries_refuted.
