(** Two sessions of neighbouring datasets, the shares of their parts, and the answers that an
    analyst gets from them. *)
From Coq Require Import String Bool Arith ZArith QArith Qcanon Lia Lqa Permutation List.
From Verif Require Import Prelude Budget BudgetProofs Value Rows Constraints ConstraintsSpec ConstraintsProofs Schema SchemaProofs Query RewriteSpec Transform TransformSpec
  TransformConform TransformVisit TransformAgree TransformIds QueryProofs QuerySame PropagateProofs Tables TablesProofs
  Accountant AccountantProofs Session SessionSpec SessionMoney SessionSteps SessionNames SessionTables SessionInv SessionViews SessionWell SessionSound
  Neighboring Builder Measure MeasureProofs BlindSpec Blind BlindMeasure BlindSession PersonSpec PersonSession PersonStart PersonAbsent
  Distance StabilitySpec RowStability SensitivitySpec Sensitivity SensitivityCounts Props_Session Props_Measure Props_Person Props_Sensitivity PrivacySpec PrivacyProofs
  FullPrivacySpec FullStability FullSpaces FullSessionSpec FullMoves FullNear FullParts.
Import ListNotations.
Local Open Scope string_scope.
Local Open Scope nat_scope.

(** ** Amounts *)
Definition amt (c : budget -> xq) (b : budget) : Q := match c b with XFin q => q | _ => 0%Q end.
Lemma finite_amount c b : component c -> valid b -> ~ infinite b -> c b = XFin (amt c b) /\ (0 <= amt c b)%Q.
Proof.
  intros [-> | ->] V N; unfold amt; destruct b as [x|x y|x]; cbn in *; try (split; [reflexivity|lra]);
    repeat match goal with z : xq |- _ => destruct z end; cbn in *; try tauto; try (split; [reflexivity|tauto]).
Qed.
Lemma finite_below a b : valid a -> valid b -> ~ infinite b -> same_kind b a -> (forall c, component c -> xle (c a) (c b)) -> ~ infinite a.
Proof.
  intros VA VB N KD L. pose proof (L loss (or_introl eq_refl)) as L1. pose proof (L delta (or_intror eq_refl)) as L2.
  destruct a as [x|x y|x], b as [x'|x' y'|x']; cbn in *; try contradiction; repeat match goal with z : xq |- _ => destruct z end; cbn in *; try tauto; try discriminate; try (intros X; apply N; discriminate X).
  intros [X|X]; [discriminate|]. apply N. right. lra.
Qed.
Lemma spend_amount l b r : valid l -> valid b -> ~ infinite l -> same_kind l b -> spend l b = Some r ->
  valid r /\ ~ infinite r /\ same_kind l r /\ ~ infinite b /\ forall c, component c -> (amt c r + amt c b == amt c l)%Q.
Proof.
  intros V V' N KD H. destruct (spend_spec l b r V V' KD H) as [(I & _)|(_ & NR & VR & KR & SUM)]; [contradiction|].
  assert (NB : ~ infinite b).
  { apply (finite_below b l V' V N KD). intros c Hc. specialize (SUM c Hc). pose proof (component_nonneg c r Hc VR) as PR.
    destruct (c r), (c b), (c l); cbn in *; try tauto; try lra. }
  split; [exact VR|]. split; [exact NR|]. split; [exact KR|]. split; [exact NB|].
  intros c Hc. specialize (SUM c Hc). destruct (finite_amount c l Hc V N) as (A & _), (finite_amount c b Hc V' NB) as (B & _), (finite_amount c r Hc VR NR) as (D & _). rewrite A, B, D in SUM. exact SUM.
Qed.
Lemma spend_some l b : valid l -> valid b -> ~ infinite l -> same_kind l b -> (forall c, component c -> xle (c b) (c l)) -> exists r, spend l b = Some r.
Proof.
  intros V V' N KD L. pose proof (L loss (or_introl eq_refl)) as L1. pose proof (L delta (or_intror eq_refl)) as L2. apply xleb_iff in L1, L2. unfold spend. destruct (Budget.is_infinite l); [eauto|].
  destruct l, b; cbn in *; try contradiction; rewrite ?L1, ?L2; cbn; eauto.
Qed.
Lemma share_kind f b : same_kind b (share_of f b). Proof. destruct b; cbn; tauto. Qed.
Lemma share_amount f b c : component c -> valid b -> ~ infinite b -> (amt c (share_of f b) == f * amt c b)%Q.
Proof.
  intros [-> | ->] V N; unfold amt; destruct b as [x|x y|x]; cbn in *; try lra; repeat match goal with z : xq |- _ => destruct z end; cbn in *; try tauto; try lra.
Qed.
Lemma share_valid f b : (0 <= f <= 1)%Q -> valid b -> ~ infinite b -> valid (share_of f b) /\ ~ infinite (share_of f b).
Proof.
  intros F V N. assert (VS : valid (share_of f b)) by (destruct b as [x|x y|x]; cbn in *; repeat match goal with z : xq |- _ => destruct z end; cbn in *; try tauto; try nra; repeat split; try nra; tauto).
  split; [exact VS|]. apply (finite_below _ b VS V N (share_kind f b)). intros c Hc.
  destruct b as [x|x y|x]; destruct Hc as [-> | ->]; cbn in *; repeat match goal with z : xq |- _ => destruct z end; cbn in *; try tauto; try nra.
Qed.
Lemma share_mono f a b : (0 <= f)%Q -> ble a b -> ble (share_of f a) (share_of f b).
Proof. intros F. destruct a as [x|x y|x], b as [x'|x' y'|x']; cbn; try tauto; repeat match goal with z : xq |- _ => destruct z end; cbn; try tauto; try nra; intros (A & B); split; try tauto; nra. Qed.

(** ** Sums over sessions *)
Definition left_at (st : state) (p : path) : budget := match find p (st_root st) with Some c => s_left (a_data c) | None => Pure (XFin 0) end.
Lemma left_session st p s : session st p s -> left_at st p = s_left s.
Proof. intros (c & F & <-). unfold left_at. rewrite F. reflexivity. Qed.
Definition total (c : budget -> xq) (L : list (path * Q)) (st : state) : Q := qsum (fun e => snd e * amt c (left_at st (fst e)))%Q L.
Lemma qsum_ext {A} (g h : A -> Q) l : (forall a, In a l -> (g a == h a)%Q) -> (qsum g l == qsum h l)%Q.
Proof. induction l as [|a l IH]; intros H; cbn [qsum]; [reflexivity|]. rewrite (H a (or_introl eq_refl)), IH; [reflexivity|]. intros b I. apply H. now right. Qed.
Lemma qsum_app {A} (g : A -> Q) l l' : (qsum g (l ++ l') == qsum g l + qsum g l')%Q.
Proof. induction l as [|a l IH]; cbn [qsum app]; [ring|]. rewrite IH. ring. Qed.
Lemma qsum_one (g h : path * Q -> Q) p f L : NoDup (map fst L) -> In (p, f) L -> (forall q x, In (q, x) L -> q <> p -> (g (q, x) == h (q, x))%Q) ->
  (qsum g L == qsum h L + (g (p, f) - h (p, f)))%Q.
Proof.
  induction L as [|(q, x) L IH]; intros N I H; [destruct I|]. cbn [map fst] in N. inversion N as [|? ? NI N']; subst. cbn [qsum]. destruct I as [[= -> ->]|I].
  - rewrite (qsum_ext g h L); [ring|]. intros (r, y) J. apply H; [now right|]. intros ->. apply NI. apply in_map_iff. exists (p, y). auto.
  - rewrite IH by (try assumption; intros r y J; apply H; now right). rewrite (H q x); [ring|now left|]. intros ->. apply NI. apply in_map_iff. exists (p, f). auto.
Qed.
Lemma unique_share (L : list (path * Q)) p f f' : NoDup (map fst L) -> In (p, f) L -> In (p, f') L -> f = f'.
Proof.
  induction L as [|(q, x) L IH]; intros N I I'; [destruct I|]. cbn in N. inversion N as [|? ? NI N']; subst.
  destruct I as [X|I], I' as [X'|I']; [congruence| | |auto]; exfalso; apply NI; apply in_map_iff; [exists (p, f')|exists (p, f)]; split; try assumption; cbn; congruence.
Qed.
(** Parts. *)
Fixpoint kids (p : path) (k : nat) (g : value -> Q) (i : nat) (sp : list (string * value)) : list (path * Q) :=
  match sp with [] => [] | (_, v) :: sp => ((p ++ [(k, i)])%list, g v) :: kids p k g (S i) sp end.
Lemma kids_in p k g : forall sp i q f, In (q, f) (kids p k g i sp) <-> exists j nm v, nth_error sp j = Some (nm, v) /\ q = (p ++ [(k, i + j)])%list /\ f = g v.
Proof.
  induction sp as [|(nm, v) sp IH]; intros i q f; cbn [kids].
  - split; [intros []|]. intros (j & nm & v & N & _). destruct j; discriminate.
  - cbn [In]. rewrite IH. split.
    + intros [[= <- <-]|(j & nm' & v' & N & -> & ->)]; [exists 0, nm, v; rewrite Nat.add_0_r; auto|exists (S j), nm', v'; cbn; rewrite Nat.add_succ_r; auto].
    + intros ([|j] & nm' & v' & N & -> & ->); [left; cbn in N; injection N as <- <-; rewrite Nat.add_0_r; reflexivity|right; exists j, nm', v'; rewrite Nat.add_succ_r; auto].
Qed.
Lemma path_last (p : path) k i j : (p ++ [(k, i)])%list = (p ++ [(k, j)])%list -> i = j.
Proof. intros H. apply app_inv_head in H. congruence. Qed.
Lemma kids_nodup p k g : forall sp i, NoDup (map fst (kids p k g i sp)).
Proof.
  induction sp as [|(nm, v) sp IH]; intros i; cbn [kids map fst]; constructor; [|apply IH].
  intros I. apply in_map_iff in I as ((q, f) & E0 & I). cbn in E0. subst q. apply kids_in in I as (j & nm' & v' & _ & E0 & _). apply path_last in E0. lia.
Qed.
Lemma kids_sum p k g (h : path -> Q) X : forall sp i, (forall q f, In (q, f) (kids p k g i sp) -> (h q == X)%Q) ->
  (qsum (fun e => snd e * h (fst e)) (kids p k g i sp) == qsum g (map snd sp) * X)%Q.
Proof.
  induction sp as [|(nm, v) sp IH]; intros i H; cbn [kids qsum map snd fst]; [ring|].
  rewrite IH by (intros q f I; apply (H q f); now right). rewrite (H _ _ (or_introl eq_refl)). ring.
Qed.
(** What is tracked after a partition. *)
Lemma look_kids (p : path) k d tr q : forall l, look q (map (fun i => ((p ++ [(k, i)])%list, d)) l ++ tr)%list = if in_dec path_eq_dec q (map (fun i => (p ++ [(k, i)])%list) l) then d else look q tr.
Proof.
  induction l as [|i l IH]; [reflexivity|]. cbn [map app look]. destruct (path_eq_dec (p ++ [(k, i)])%list q) as [->|NE].
  - match goal with |- context [in_dec ?a ?b ?c] => destruct (in_dec a b c) as [_|NI] end; [reflexivity|]. destruct NI. now left.
  - rewrite IH. repeat match goal with |- context [in_dec ?a ?b ?c] => let I := fresh "I" in destruct (in_dec a b c) as [I|I] end; try reflexivity; exfalso.
    + apply I0. now right.
    + destruct I0 as [X|X]; [exact (NE X)|exact (I X)].
Qed.
Lemma near_ext gone who rho f d d' T T' T1 T1' : (forall n, T n = T1 n) -> (forall n, T' n = T1' n) -> d = d' -> near gone who rho f d T T' -> near gone who rho f d' T1 T1'.
Proof.
  intros H H' <- [A B C]. constructor.
  - intros n. rewrite <- H, <- H'. apply A.
  - intros n t t' X X'. rewrite <- H in X. rewrite <- H' in X'. exact (B n t t' X X').
  - intros k. destruct (C k) as [P|P]; [left; exact P|right]. intros n t X Y. rewrite <- H in X. rewrite <- H'. exact (P n t X Y).
Qed.

(** ** Sessions of neighbouring datasets *)
Section Play.
Variable E : env.
Variables (gone : string -> bool) (who : string -> value).
Hypothesis BL : blind E.
Notation W := (e_world E).
Notation near := (near gone who).

Record linked (tr : tracked) (L : list (path * Q)) (st st' : state) : Prop := {
  lk_good : good st; lk_good' : good st'; lk_same : same_but_rows st st'; lk_books : balanced (payload (st_root st)); lk_books' : balanced (payload (st_root st'));
  lk_paths : NoDup (map fst L);
  lk_all : forall p s, session st p s -> exists f, In (p, f) L;
  lk_pair : forall p f, In (p, f) L -> (0 <= f <= 1)%Q /\ exists s s', session st p s /\ session st' p s' /\ ~ infinite (s_left s)
    /\ near (is_rho (s_left s)) f (look p tr) (tables s) (tables s')
}.
Lemma linked_at tr L st st' p s s' : linked tr L st st' -> session st p s -> session st' p s' ->
  exists f, In (p, f) L /\ (0 <= f <= 1)%Q /\ near (is_rho (s_left s)) f (look p tr) (tables s) (tables s') /\ ~ infinite (s_left s) /\ valid (s_left s) /\ hide_sess s = hide_sess s'.
Proof.
  intros LK S S'. destruct (lk_all _ _ _ _ LK p s S) as (f & I). destruct (lk_pair _ _ _ _ LK p f I) as (F & s0 & s0' & S0 & S0' & N & NR).
  rewrite (session_inj _ _ _ _ S0 S) in *. rewrite (session_inj _ _ _ _ S0' S') in *. exists f. split; [exact I|]. split; [exact F|]. split; [exact NR|]. split; [exact N|].
  split; [apply bk_left, (session_books st p); [apply LK|exact S]|apply (pair_hide st st' p); [apply LK|assumption|assumption]].
Qed.
(** What both sides have in common. *)
Lemma same_inputs s s' pub cat cat' data data' : hide_sess s = hide_sess s' -> catalog_of (s_tree s) pub (s_cons s) = Ok cat -> catalog_of (s_tree s') pub (s_cons s') = Ok cat' ->
  data_of (s_tree s) = Ok data -> data_of (s_tree s') = Ok data' -> cat' = cat /\ hide_all data = hide_all data'.
Proof.
  intros HS CA CA' DA DA'. pose proof (f_equal s_tree HS) as HT. cbn in HT. pose proof (f_equal s_cons HS) as HC. cbn in HC. split.
  - rewrite <- catalog_hide in CA, CA'. rewrite HT, HC in CA. congruence.
  - pose proof (data_hide (s_tree s)) as H1. pose proof (data_hide (s_tree s')) as H2. rewrite DA in H1. rewrite DA' in H2. rewrite HT, H2 in H1. cbn in H1. congruence.
Qed.
Lemma same_inputs_err s s' pub : hide_sess s = hide_sess s' ->
  rmap hide_all (data_of (s_tree s)) = rmap hide_all (data_of (s_tree s')) /\ catalog_of (s_tree s) pub (s_cons s) = catalog_of (s_tree s') pub (s_cons s').
Proof.
  intros HS. pose proof (f_equal s_tree HS) as HT. cbn in HT. pose proof (f_equal s_cons HS) as HC. cbn in HC. split.
  - rewrite <- !data_hide, HT. reflexivity.
  - rewrite <- (catalog_hide (s_tree s)), <- (catalog_hide (s_tree s')), HT, HC. reflexivity.
Qed.
Lemma session_pair st st' p : same_but_rows st st' -> match session_at st p, session_at st' p with Ok s, Ok s' => hide_sess s = hide_sess s' | Err _, Err _ => True | _, _ => False end.
Proof.
  intros SB. pose proof (session_hide st p) as H1. pose proof (session_hide st' p) as H2. unfold same_but_rows in SB. rewrite SB, H2 in H1. destruct (session_at st p), (session_at st' p); cbn in H1; try discriminate; [congruence|exact Logic.I].
Qed.
Lemma track_same tr L st st' o : linked tr L st st' -> track E tr st o = track E tr st' o.
Proof.
  intros LK. pose proof (lk_same _ _ _ _ LK) as SB. destruct (step_same E BL st st' o SB) as (SR & _). pose proof (f_equal st_public SB) as PUB. cbn in PUB.
  destruct o as [p q b|p q b|p nm f|p q nm c|p nm|p src b col sps|p]; unfold track; try reflexivity; rewrite <- SR; destruct (snd (step E st _)) as [u|e]; try reflexivity.
  - pose proof (session_pair st st' p SB) as SP. destruct (session_at st p) as [s|], (session_at st' p) as [s'|]; try contradiction; [|reflexivity].
    f_equal. f_equal. unfold view_distances. rewrite <- (f_equal s_left SP : s_left s = s_left s'), <- PUB. destruct (same_inputs_err s s' (st_public st) SP) as (D & CE). rewrite <- CE.
    destruct (catalog_of (s_tree s) (st_public st) (s_cons s)) as [cat|]; [|reflexivity]. destruct (data_of (s_tree s)) as [data|], (data_of (s_tree s')) as [data'|]; cbn in D; try discriminate D; [|reflexivity].
    assert (D1 : hide_all data = hide_all data') by congruence. rewrite D1. reflexivity.
  - destruct (find p (st_root st)) as [c|] eqn:F, (find p (st_root st')) as [c'|] eqn:F'.
    + assert (S : session st p (a_data c)) by (exists c; auto). assert (S' : session st' p (a_data c')) by (exists c'; auto).
      destruct (linked_at _ _ _ _ _ _ _ LK S S') as (f & _ & _ & NR & _ & _ & HS). pose proof (nr_hide _ _ _ _ _ _ _ NR src) as NH. unfold tables in NH.
      rewrite <- (f_equal s_left HS : s_left (a_data c) = s_left (a_data c')), <- (f_equal s_cons HS : s_cons (a_data c) = s_cons (a_data c')), (shape_find st st' p c c' SB F F').
      destruct (dget src (named (s_tree (a_data c)))) as [t|], (dget src (named (s_tree (a_data c')))) as [t'|]; cbn in NH; try discriminate NH; [|reflexivity].
      assert (HT : hide t = hide t') by congruence. apply hide_eqs in HT as (_ & HC & _). unfold part_distances. rewrite HC. reflexivity.
    + pose proof (session_pair st st' p SB) as SP. unfold session_at in SP. rewrite F, F' in SP. destruct SP.
    + pose proof (session_pair st st' p SB) as SP. unfold session_at in SP. rewrite F, F' in SP. destruct SP.
    + reflexivity.
Qed.

(** ** One call *)
Lemma link_one tr tr1 L st st' st1 st1' p s s' s1 s1' : linked tr L st st' -> good st1 -> good st1' -> same_but_rows st1 st1' ->
  balanced (payload (st_root st1)) -> balanced (payload (st_root st1')) -> session st p s -> session st' p s' ->
  one_session st st1 p s1 -> one_session st' st1' p s1' -> ~ infinite (s_left s1) -> is_rho (s_left s1) = is_rho (s_left s) ->
  (forall f, (0 <= f <= 1)%Q -> near (is_rho (s_left s)) f (look p tr) (tables s) (tables s') -> near (is_rho (s_left s)) f (look p tr1) (tables s1) (tables s1')) ->
  (forall q, q <> p -> look q tr1 = look q tr) -> linked tr1 L st1 st1'.
Proof.
  intros LK G G' SB B B' S S' O O' NI RH NR LO. constructor; try assumption; [apply LK| |].
  - intros q x X. apply O in X as [(-> & _)|(_ & X)]; [exact (lk_all _ _ _ _ LK _ _ S)|exact (lk_all _ _ _ _ LK _ _ X)].
  - intros q f I. destruct (lk_pair _ _ _ _ LK q f I) as (F & s0 & s0' & S0 & S0' & N & N0). split; [exact F|]. destruct (path_eq_dec q p) as [->|NP].
    + rewrite (session_inj _ _ _ _ S0 S) in *. rewrite (session_inj _ _ _ _ S0' S') in *. exists s1, s1'. split; [apply O; auto|]. split; [apply O'; auto|]. split; [exact NI|]. rewrite RH. apply NR; assumption.
    + exists s0, s0'. split; [apply O; auto|]. split; [apply O'; auto|]. split; [exact N|]. rewrite (LO q NP). exact N0.
Qed.
Lemma total_at tr L st st' st1 p s s1 f c : linked tr L st st' -> session st p s -> session st1 p s1 -> (forall q x, q <> p -> session st q x -> session st1 q x) -> In (p, f) L ->
  (total c L st1 == total c L st + f * (amt c (s_left s1) - amt c (s_left s)))%Q.
Proof.
  intros LK S O1 O I. unfold total. rewrite (qsum_one (fun e => snd e * amt c (left_at st1 (fst e)))%Q (fun e => snd e * amt c (left_at st (fst e)))%Q p f L (lk_paths _ _ _ _ LK) I).
  - cbn [fst snd]. rewrite (left_session st p s S), (left_session st1 p s1 O1). ring.
  - intros q x J NP. cbn [fst snd]. destruct (lk_pair _ _ _ _ LK q x J) as (_ & s0 & _ & S0 & _). rewrite (left_session st q s0 S0), (left_session st1 q s0 (O q s0 NP S0)). reflexivity.
Qed.
Lemma total_one tr L st st' st1 p s s1 f c : linked tr L st st' -> session st p s -> one_session st st1 p s1 -> In (p, f) L ->
  (total c L st1 == total c L st + f * (amt c (s_left s1) - amt c (s_left s)))%Q.
Proof. intros LK S O. apply (total_at tr L st st' st1 p s s1 f c LK S); [apply O; auto|]. intros q x NP X. apply O. auto. Qed.
Lemma nodup_app {A} (l l' : list A) : NoDup l -> NoDup l' -> (forall a, In a l -> ~ In a l') -> NoDup (l ++ l')%list.
Proof.
  induction l as [|a l IH]; intros N N' D; [exact N'|]. inversion N as [|? ? NI N1]; subst. cbn. constructor.
  - intros I. apply in_app_or in I as [I|I]; [exact (NI I)|]. apply (D a); [now left|exact I].
  - apply IH; [exact N1|exact N'|]. intros b I. apply D. now right.
Qed.
Lemma total_same tr L st st' st1 c : linked tr L st st' -> same_sessions st st1 -> (total c L st1 == total c L st)%Q.
Proof.
  intros LK O. unfold total. apply qsum_ext. intros (q, x) J. cbn [fst snd]. destruct (lk_pair _ _ _ _ LK q x J) as (_ & s0 & _ & S0 & _).
  rewrite (left_session st q s0 S0), (left_session st1 q s0) by (apply O; exact S0). reflexivity.
Qed.
Definition all_kinds (B : budget) (st : state) : Prop := forall p s, session st p s -> same_kind B (s_left s).
Lemma look_cons p d tr q : look q ((p, d) :: tr) = if path_eq_dec p q then d else look q tr.
Proof. reflexivity. Qed.
Lemma not_below (p : path) x : p <> (p ++ [x])%list.
Proof. intros H. apply (f_equal (@length _)) in H. rewrite app_length in H. cbn in H. lia. Qed.

Lemma link_step auto tr L st st' o : linked tr L st st' -> honest_call E auto st o -> honest_call E auto st' o ->
  exists L', linked (track E tr st o) L' (fst (step E st o)) (fst (step E st' o))
    /\ (forall c, component c -> (total c L' (fst (step E st o)) <= total c L st)%Q)
    /\ (forall B, all_kinds B st -> all_kinds B (fst (step E st o)))
    /\ (forall p q b u, o = Evaluate p q b -> snd (step E st o) = Ok u -> L' = L /\
         forall s adj f, session st p s -> compile_and_get_info E s (st_public st) q b = Ok adj -> In (p, f) L ->
         forall c, component c -> (total c L (fst (step E st o)) + f * amt c adj == total c L st)%Q).
Proof.
  intros LK (HO & HC) (HO' & HC'). pose proof (track_same tr L st st' o LK) as TS. pose proof LK as [G G' SB BB BB' ND ALL PAIR].
  destruct (step_same E BL st st' o SB) as (SR & SB1). pose proof (step_good E st o G HO) as G1. pose proof (step_good E st' o G' HO') as G1'.
  assert (B1 : balanced (payload (st_root (fst (step E st o))))) by (destruct (step E st o) as (x, r) eqn:ST; cbn [fst]; apply step_effect in ST; [|apply G]; apply (effect_balanced E _ _ _ _ ST BB)).
  assert (B1' : balanced (payload (st_root (fst (step E st' o))))) by (destruct (step E st' o) as (x, r) eqn:ST; cbn [fst]; apply step_effect in ST; [|apply G']; apply (effect_balanced E _ _ _ _ ST BB')).
  pose proof (f_equal st_public SB) as PUB. cbn in PUB.
  destruct (step E st o) as (st1, r) eqn:ST. destruct (step E st' o) as (st1', r') eqn:ST'. cbn [fst snd] in *. subst r'.
  pose proof (step_moves E st o st1 r (g_ok _ G) (g_tables _ G) ST) as M. pose proof (step_moves E st' o st1' r (g_ok _ G') (g_tables _ G') ST') as M'.
  destruct M as [o st1 r QS OK|p q b s adj rest st1 o OK S CO SD ON|p q n c s cat data y s1 st1 S CA DA BT LF TB ON|p n s s1 st1 S LF TB ON
    |p src b col sp s b1 adj rest t t1 pl c st1 S FC LP V PB SD PO SE].
  - (* nothing happens *)
    assert (QS' : same_sessions st' st1').
    { inversion M' as [? ? ? Q' _|? ? ? ? ? ? ? ? OK'|? ? ? ? ? ? ? ? ? ?|? ? ? ? ?|? ? ? ? ? ? ? ? ? ? ? ? ? ?]; subst; [exact Q'| | | |]; exfalso;
        specialize (OK tt eq_refl); try exact OK. destruct OK' as [-> | ->]; exact OK. }
    assert (TK : match o, r with CreateView p q n _, Ok _ => False | Partition p src _ col splits, Ok _ => False | _, _ => True end) by (destruct r as [[]|e]; [specialize (OK tt eq_refl)|]; destruct o; auto; contradiction).
    exists L. split; [|split; [|split]].
    + assert (TX : track E tr st o = tr) by (clear - TK ST; unfold track; destruct o; try reflexivity; rewrite ST; destruct r; try reflexivity; destruct TK).
      rewrite TX. clear TX.
      constructor; try assumption.
      * intros p s S. apply QS in S. exact (ALL p s S).
      * intros p f I. destruct (PAIR p f I) as (F & s & s' & S & S' & N). split; [exact F|]. exists s, s'. split; [apply QS, S|]. split; [apply QS', S'|exact N].
    + intros c _. rewrite (total_same tr L st st' st1 c LK QS). apply Qle_refl.
    + intros B AK p s S. apply (AK p). apply QS, S.
    + intros p q b u -> ->. exfalso. exact (OK u eq_refl).
  - (* spending *)
    inversion M' as [? ? ? _ OK'|p' q' b' s' adj' rest' ? ? OK' S' CO' SD' ON'|? ? ? ? ? ? ? ? ? ?|? ? ? ? ?|? ? ? ? ? ? ? ? ? ? ? ? ? ?]; subst;
      try (destruct OK as [OK|OK]; discriminate OK); [exfalso; specialize (OK' tt eq_refl); destruct OK as [-> | ->]; exact OK'|].
    assert (PE : p' = p /\ q' = q /\ b' = b) by (destruct OK as [-> | ->], OK' as [OK'|OK']; try discriminate OK'; injection OK' as <- <- <-; auto). destruct PE as (-> & -> & ->).
    destruct (linked_at _ _ _ _ _ _ _ LK S S') as (f & I & F & NR & NI & VL & HS).
    destruct (compile_adj E _ _ _ _ _ CO) as (VA & KA). destruct (spend_amount _ _ _ VL VA NI KA SD) as (VR & NR1 & KR & NA & SUM).
    exists L. split; [|split; [|split]].
    + assert (TX : track E tr st o = tr) by (clear - OK; destruct OK as [-> | ->]; reflexivity).
      rewrite TX. clear TX.
      eapply (link_one tr tr L st st' st1 st1' p s s'); try eassumption; [cbn; symmetry; destruct (measure_kind _ _ KR) as (_ & R); exact R|intros f0 _ H; exact H|reflexivity].
    + intros c Hc. rewrite (total_one tr L st st' st1 p s _ f c LK S ON I). cbn [s_left charged]. pose proof (SUM c Hc) as SU. destruct (finite_amount c adj Hc VA NA) as (_ & P). nra.
    + intros B AK q' s0 X. apply ON in X as [(-> & ->)|(_ & X)]; [|exact (AK q' s0 X)]. cbn. eapply same_kind_trans; [exact (AK p s S)|exact KR].
    + intros p1 q1 b2 u E0 _. split; [reflexivity|]. intros s0 adj0 f0 S0 CO0 I0 c Hc. destruct OK as [-> | ->]; [|discriminate E0]. injection E0 as <- <- <-.
      rewrite (session_inj _ _ _ _ S0 S) in *. rewrite CO in CO0. injection CO0 as <-. rewrite (total_one tr L st st' st1 p s _ f0 c LK S ON I0). cbn [s_left charged]. pose proof (SUM c Hc) as SU.
      transitivity (total c L st + f0 * ((amt c rest + amt c adj) - amt c (s_left s)))%Q; [ring|]. rewrite SU. ring.
  - (* a view *)
    inversion M' as [? ? ? _ OK'|? ? ? ? ? ? ? ? OK'|p' q' n' c' s' cat' data' y' s1' ? S' CA' DA' BT' LF' TB' ON'|? ? ? ? ?|? ? ? ? ? ? ? ? ? ? ? ? ? ?]; subst;
      [exfalso; exact (OK' tt eq_refl)|destruct OK' as [OK'|OK']; discriminate OK'|].
    destruct (linked_at _ _ _ _ _ _ _ LK S S') as (f & I & F & NR & NI & VL & HS). rewrite <- PUB in CA'.
    destruct (same_inputs s s' _ _ _ _ _ HS CA CA' DA DA') as (-> & HD). rewrite PUB in CA'.
    destruct HO as (_ & HO). destruct HO' as (_ & HO'). destruct (HO s cat data S CA DA) as (au & B & P & ST1). destruct (HO' s' cat data' S' CA' DA') as (au' & _ & P' & ST1').
    destruct (ST1 eq_refl) as (FI & _). destruct (ST1' eq_refl) as (FI' & _). cbn in HC, HC'. specialize (HC s cat data S CA DA). specialize (HC' s' cat data' S' CA' DA').
    destruct (sound_inputs true st s cat data (g_tables _ G p s S) (g_fine _ G p s S) (g_sound _ G p s S) (g_public _ G) CA DA) as (IN & _).
    destruct (sound_inputs true st' s' cat data' (g_tables _ G' p s' S') (g_fine _ G' p s' S') (g_sound _ G' p s' S') (g_public _ G') CA' DA') as (IN' & _).
    pose proof (data_placed _ _ (tk_layout s (g_tables _ G p s S)) DA) as PL. pose proof (data_placed _ _ (tk_layout s' (g_tables _ G' p s' S')) DA') as PL'.
    destruct (data_of_spec _ (tk_layout s (g_tables _ G p s S))) as (da & DA1 & DG). rewrite DA1 in DA. injection DA as ->.
    destruct (data_of_spec _ (tk_layout s' (g_tables _ G' p s' S'))) as (da' & DA1' & DG'). rewrite DA1' in DA'. injection DA' as ->.
    pose proof (f_equal s_left HS : s_left s = s_left s') as LE. rewrite <- LE in *.
    unfold track. rewrite ST. cbn [snd]. rewrite (proj2 (session_at_iff st p s) S). unfold view_distances. rewrite CA, DA1.
    exists L. split; [|split; [|split]].
    + eapply (link_one tr _ L st st' st1 st1' p s s'); try eassumption; [rewrite LF; exact NI|rewrite LF; reflexivity| |].
      * intros f0 F0 NR0. rewrite look_cons. destruct (path_eq_dec p p) as [_|NP]; [|now destruct NP].
        assert (NR1 : near (is_rho (s_left s)) f0 (look p tr) (fun m => dget m data) (fun m => dget m data')) by (eapply near_ext; [| |reflexivity|exact NR0]; intros m; [rewrite DG|rewrite DG']; reflexivity).
        destruct (result_near gone who E (is_rho (s_left s)) (is_rho (s_left s)) cat data data' f0 (look p tr) au (proj1 F0) IN IN' HD PL NR1 q y y' B P P' FI FI' HC HC' BT BT') as (PN & _ & HY & EQ).
        constructor.
        -- intros m. rewrite TB, TB'. destruct (String.eqb m n); [cbn; congruence|apply (nr_hide _ _ _ _ _ _ _ NR0)].
        -- intros m u u'. rewrite TB, TB'. cbn [of_table]. destruct (String.eqb m n); [intros [= <-] [= <-]; exact PN|apply (nr_tables _ _ _ _ _ _ _ NR0)].
        -- intros k. cbn [of_space]. destruct (nr_share _ _ _ _ _ _ _ NR1 k) as [PO|AE]; [left; exact PO|right]. intros m u. rewrite TB, TB'. destruct (String.eqb m n).
           ++ intros [= <-] VK. rewrite (EQ k VK AE). reflexivity.
           ++ intros X VK. unfold tables in X |- *. rewrite <- DG in X. rewrite <- DG'. exact (AE m u X VK).
      * intros q0 NQ. rewrite look_cons. destruct (path_eq_dec p q0) as [->|_]; [now destruct NQ|reflexivity].
    + intros c0 _. rewrite (total_one tr L st st' st1 p s _ f c0 LK S ON I), LF. ring_simplify. apply Qle_refl.
    + intros B0 AK q' s0 X. apply ON in X as [(-> & ->)|(_ & X)]; [|exact (AK q' s0 X)]. rewrite LF. exact (AK p s S).
    + discriminate.
  - (* deleting *)
    inversion M' as [? ? ? _ OK'|? ? ? ? ? ? ? ? OK'|? ? ? ? ? ? ? ? ? ?|p' n' s' s1' ? S' LF' TB' ON'|? ? ? ? ? ? ? ? ? ? ? ? ? ?]; subst;
      [exfalso; exact (OK' tt eq_refl)|destruct OK' as [OK'|OK']; discriminate OK'|].
    destruct (linked_at _ _ _ _ _ _ _ LK S S') as (f & I & F & NR & NI & VL & HS).
    exists L. split; [|split; [|split]].
    + eapply (link_one tr tr L st st' st1 st1' p s s'); try eassumption; [rewrite LF; exact NI|rewrite LF; reflexivity| |reflexivity].
      intros f0 F0 [A1 A2 A3]. constructor.
      * intros m. rewrite TB, TB'. destruct (String.eqb m n); [reflexivity|apply A1].
      * intros m u u'. rewrite TB, TB'. destruct (String.eqb m n); [discriminate|apply A2].
      * intros k. destruct (A3 k) as [PO|AE]; [left; exact PO|right]. intros m u. rewrite TB, TB'. destruct (String.eqb m n); [discriminate|apply AE].
    + intros c0 _. rewrite (total_one tr L st st' st1 p s _ f c0 LK S ON I), LF. ring_simplify. apply Qle_refl.
    + intros B0 AK q' s0 X. apply ON in X as [(-> & ->)|(_ & X)]; [|exact (AK q' s0 X)]. rewrite LF. exact (AK p s S).
    + discriminate.
  - (* partitioning *)
    inversion M' as [? ? ? _ OK'|? ? ? ? ? ? ? ? OK'|? ? ? ? ? ? ? ? ? ?|? ? ? ? ?|p' src' b' col' sp' s' b1' adj' rest' t' t1' pl' c' ? S' FC' LP' V' PB' SD' PO' SE']; subst;
      [exfalso; exact (OK' tt eq_refl)|destruct OK' as [OK'|OK']; discriminate OK'|].
    destruct (linked_at _ _ _ _ _ _ _ LK S S') as (f & I & F & NR & NI & VL & HS). pose proof (f_equal s_left HS : s_left s = s_left s') as LE. rewrite <- LE in *.
    assert (b1' = b1) as -> by congruence. assert (adj' = adj) as -> by congruence. assert (rest' = rest) as -> by congruence.
    assert (EC : a_data c = s) by (apply (session_inj st p); [exists c; auto|exact S]).
    pose proof (shape_find st st' p c c' SB FC FC') as SL. rewrite <- SL in SE'.
    destruct (parts_near E gone who s s' src col (map snd sp) t t1 pl t' t1' pl' f (look p tr) (g_tables _ G p s S) (g_tables _ G' p s' S') HS F NR PO PO') as (g & GB & GS & GN).
    pose proof PB as PV. apply process_valid in PV as (VA & KA). pose proof (validate_kind _ _ _ V) as KV. assert (KA' : same_kind (s_left s) adj) by (eapply same_kind_trans; eassumption).
    destruct (spend_amount _ _ _ VL VA NI KA' SD) as (VR & NR1 & KR & NA & SUM).
    assert (NEW : forall q x j, session st q x -> q <> (p ++ [(length (a_parts c), j)])%list) by (intros q x j X ->; exact (new_path _ _ _ _ _ FC X)).
    unfold track. rewrite ST. cbn [snd]. rewrite FC, EC, (po_table _ _ _ _ _ _ _ _ PO).
    set (k := length (a_parts c)) in *. set (d := part_distances _ _ t src col (look p tr)) in *. set (tr1 := (map (fun i => ((p ++ [(k, i)])%list, d)) (seq 0 (length sp)) ++ tr)%list).
    assert (LO : forall q, (forall j, q <> (p ++ [(k, j)])%list) -> look q tr1 = look q tr).
    { intros q NQ. unfold tr1. rewrite look_kids. match goal with |- context [in_dec ?a ?b ?c] => destruct (in_dec a b c) as [X|X] end; [|reflexivity].
      apply in_map_iff in X as (j & X & _). destruct (NQ j). auto. }
    assert (LN : forall j, j < length sp -> look (p ++ [(k, j)])%list tr1 = d).
    { intros j LJ. unfold tr1. rewrite look_kids. match goal with |- context [in_dec ?a ?b ?c] => destruct (in_dec a b c) as [X|X] end; [reflexivity|].
      destruct X. apply in_map_iff. exists j. split; [reflexivity|]. apply in_seq. lia. }
    exists (L ++ kids p k g 0 sp)%list. split; [|split; [|split]].
    + constructor; try assumption.
      * rewrite map_app. apply nodup_app; [exact ND|apply kids_nodup|]. intros q I1 I2. apply in_map_iff in I1 as ((q1, f1) & E1 & I1). apply in_map_iff in I2 as ((q2, f2) & E2 & I2). cbn in E1, E2. subst q1 q2.
        destruct (PAIR q f1 I1) as (_ & x & _ & X & _). apply kids_in in I2 as (j & _ & _ & _ & E2 & _). exact (NEW q x _ X E2).
      * intros q x X. apply SE in X as [(-> & _)|[(i & nm & v & -> & N & _)|(_ & X)]].
        -- exists f. apply in_or_app. now left.
        -- exists (g v). apply in_or_app. right. apply kids_in. exists i, nm, v. auto.
        -- destruct (ALL q x X) as (f0 & I0). exists f0. apply in_or_app. now left.
      * intros q f0 I0. apply in_app_or in I0 as [I0|I0].
        -- destruct (PAIR q f0 I0) as (F0 & x & x' & X & X' & N & N0). split; [exact F0|]. rewrite (LO q (fun j => NEW q x j X)). destruct (path_eq_dec q p) as [->|NP].
           ++ rewrite (session_inj _ _ _ _ X S) in *. rewrite (session_inj _ _ _ _ X' S') in *. exists (charged s rest (Split adj)), (charged s' rest (Split adj)).
              split; [apply SE; auto|]. split; [apply SE'; auto|]. split; [exact NR1|]. cbn [s_left charged]. destruct (measure_kind _ _ KR) as (_ & <-). exact N0.
           ++ exists x, x'. split; [apply SE; auto|]. split; [apply SE'; auto|]. auto.
        -- apply kids_in in I0 as (j & nm & v & NJ & -> & ->). cbn [Nat.add]. assert (IV : In v (map snd sp)) by (apply in_map_iff; exists (nm, v); split; [reflexivity|eapply nth_error_In, NJ]).
           split; [exact (GB v IV)|]. eexists _, _. split; [apply SE; right; left; exists j, nm, v; split; [reflexivity|split; [exact NJ|reflexivity]]|].
           split; [apply SE'; right; left; exists j, nm, v; split; [reflexivity|split; [exact NJ|reflexivity]]|].
           rewrite LN by (apply nth_error_Some; congruence).
           assert (PL : forall sp0 dm nm0 y, s_left (part_session adj sp0 dm nm0 y) = adj) by (intros sp0 dm nm0 y; unfold part_session; destruct sp0, (t_place y); reflexivity).
           rewrite PL. split; [exact NA|]. destruct (measure_kind _ _ KA') as (_ & <-). apply GN. exact IV.
    + intros c0 Hc. unfold total. rewrite qsum_app. fold (total c0 L st1).
      rewrite (kids_sum p k g (fun q => amt c0 (left_at st1 q)) (amt c0 adj)).
      2: { intros q f0 I0. apply kids_in in I0 as (j & nm & v & NJ & -> & ->). cbn [Nat.add].
           rewrite (left_session st1 (p ++ [(k, j)])%list (part_session adj (v_coll t) (v_dom t) nm {| t_place := pl; t_rows := filter (has_value col v) (t_rows t1) |})).
           - unfold part_session. destruct (v_coll t), pl; reflexivity.
           - apply SE. right. left. exists j, nm, v. auto. }
      rewrite (total_at tr L st st' st1 p s (charged s rest (Split adj)) f c0 LK S); [|apply SE; auto|intros q x NQ X; apply SE; auto|exact I].
      cbn [s_left charged]. pose proof (SUM c0 Hc) as SU. destruct (finite_amount c0 adj Hc VA NA) as (_ & P0).
      assert (X1 : (qsum g (map snd sp) * amt c0 adj <= f * amt c0 adj)%Q) by (apply Qmult_le_compat_r; assumption).
      assert (X2 : (f * (amt c0 rest - amt c0 (s_left s)) == - (f * amt c0 adj))%Q) by (rewrite <- SU; ring).
      rewrite X2. fold (total c0 L st). lra.
    + intros B AK q x X. apply SE in X as [(-> & ->)|[(i & nm & v & -> & N & ->)|(_ & X)]].
      * cbn. eapply same_kind_trans; [exact (AK p s S)|exact KR].
      * replace (s_left (part_session _ _ _ _ _)) with adj by (unfold part_session; destruct (v_coll t), pl; reflexivity). eapply same_kind_trans; [exact (AK p s S)|exact KA'].
      * exact (AK q x X).
    + discriminate.
Qed.

(** ** Whole interactions *)
Variable K : core.
Variable auto : bool.
Variable so : list string -> list string.
Variable C : closeness.
Variable noisy : nat -> measurement -> dist C table.
Hypothesis BK : blind_core K.
Hypothesis CW : compiles_with E K auto so.
Hypothesis PRO : proportionate E K auto so C noisy.

Lemma noise_same tr L st st' p q : linked tr L st st' -> noise_distance E tr st p q = noise_distance E tr st' p q.
Proof.
  intros LK. pose proof (lk_same _ _ _ _ LK) as SB. pose proof (f_equal st_public SB) as PUB. cbn in PUB. unfold noise_distance.
  pose proof (session_pair st st' p SB) as SP. destruct (session_at st p) as [s|] eqn:S, (session_at st' p) as [s'|] eqn:S'; try contradiction; [|reflexivity].
  rewrite <- (f_equal s_left SP : s_left s = s_left s'), <- PUB. destruct (same_inputs_err s s' (st_public st) SP) as (D & CE). rewrite <- CE.
  destruct (catalog_of (s_tree s) (st_public st) (s_cons s)) as [cat|]; [|reflexivity]. destruct (data_of (s_tree s)) as [data|] eqn:DA, (data_of (s_tree s')) as [data'|] eqn:DA'; cbn in D; try discriminate D; [|reflexivity].
  assert (D1 : hide_all data = hide_all data') by congruence. rewrite D1.
  apply session_at_iff in S, S'. destruct (linked_at _ _ _ _ _ _ _ LK S S') as (f & _ & _ & NR & _ & _ & _).
  destruct (data_of_spec _ (tk_layout s (g_tables _ (lk_good _ _ _ _ LK) p s S))) as (da & DA1 & DG). rewrite DA1 in DA. injection DA as ->.
  destruct (data_of_spec _ (tk_layout s' (g_tables _ (lk_good' _ _ _ _ LK) p s' S'))) as (da' & DA1' & DG'). rewrite DA1' in DA'. injection DA' as ->.
  assert (RS : read_space data (agg_child q) = read_space data' (agg_child q)).
  { unfold read_space. destruct (sources (agg_child q)) as [|n l]; [reflexivity|]. pose proof (nr_hide _ _ _ _ _ _ _ NR n) as NH. unfold tables in NH. rewrite DG, DG'.
    destruct (dget n (named (s_tree s))) as [t|], (dget n (named (s_tree s'))) as [t'|]; cbn in NH; try discriminate NH; [|reflexivity]. assert (HT : hide t = hide t') by congruence. apply hide_eqs in HT as (_ & HC & _). exact HC. }
  rewrite RS. reflexivity.
Qed.
Lemma xle_amount c B x : component c -> valid B -> ~ infinite B -> valid x -> ~ infinite x -> (amt c x <= amt c B)%Q -> xle (c x) (c B).
Proof. intros Hc V N V' N' H. destruct (finite_amount c B Hc V N) as (-> & _), (finite_amount c x Hc V' N') as (-> & _). exact H. Qed.
Lemma total_part tr L st st' p f s c : linked tr L st st' -> component c -> session st p s -> In (p, f) L -> (f * amt c (s_left s) <= total c L st)%Q.
Proof.
  intros LK Hc S I. assert (NN : forall e, In e L -> (0 <= snd e * amt c (left_at st (fst e)))%Q).
  { intros (q, x) J. cbn [fst snd]. destruct (lk_pair _ _ _ _ LK q x J) as (F & s0 & _ & S0 & _ & N & _). rewrite (left_session st q s0 S0).
    destruct (finite_amount c (s_left s0) Hc) as (_ & P); [apply bk_left, (session_books st q); [apply LK|exact S0]|exact N|]. nra. }
  pose proof (proj2 (qsum_in _ L NN) (p, f) I) as H. cbn [fst snd] in H. rewrite (left_session st p s S) in H. exact H.
Qed.
Lemma converse_close n : forall a hist tr L st st' B, linked tr L st st' -> honest_analyst E auto n a hist st -> honest_analyst E auto n a hist st' ->
  valid B -> ~ infinite B -> all_kinds B st -> (forall c, component c -> (total c L st <= amt c B)%Q) ->
  close C B (converse E K auto so C noisy n a hist tr st) (converse E K auto so C noisy n a hist tr st').
Proof.
  induction n as [|n IH]; intros a hist tr L st st' B LK HA HA' V N AK TO; cbn [converse honest_analyst] in *; [apply close_same, V|].
  destruct (a hist) as [o|]; [|apply close_same, V]. destruct HA as (HO & HA), HA' as (HO' & HA').
  destruct (link_step auto tr L st st' o LK HO HO') as (L1 & LK1 & TO1 & AK1 & EV). destruct (step_same E BL st st' o (lk_same _ _ _ _ LK)) as (SR & _).
  rewrite <- (track_same tr L st st' o LK).
  assert (REST : forall r, possible E st o r -> possible E st' o r -> close C B
      (converse E K auto so C noisy n a (hist ++ [r])%list (track E tr st o) (fst (step E st o))) (converse E K auto so C noisy n a (hist ++ [r])%list (track E tr st o) (fst (step E st' o)))).
  { intros r P P'. apply (IH a _ _ L1); try assumption; [apply HA, P|apply HA', P'|apply AK1, AK|]. intros c Hc. eapply Qle_trans; [apply TO1, Hc|apply TO, Hc]. }
  unfold possible in *.
  destruct o as [p q b|p q b|p nm f|p q nm c|p nm|p src b col sps|p]; try (rewrite <- SR; apply REST; rewrite ?SR; reflexivity).
  destruct (step E st (Evaluate p q b)) as (st1, r) eqn:ST. destruct (step E st' (Evaluate p q b)) as (st1', r') eqn:ST'. cbn [fst snd] in *. subst r'.
  destruct r as [u|e]; [|apply REST; reflexivity].
  destruct (evaluated E K auto so CW st p q b st1 u (lk_good _ _ _ _ LK) (lk_books _ _ _ _ LK) ST) as (s & adj & rest & cat & data & m & S & S1 & CO & SD & VL & VA & KA & CA & DA & CM & MO & LB & _).
  destruct (evaluated E K auto so CW st' p q b st1' u (lk_good' _ _ _ _ LK) (lk_books' _ _ _ _ LK) ST') as (s' & adj' & rest' & cat' & data' & m' & S' & S1' & CO' & SD' & VL' & VA' & KA' & CA' & DA' & CM' & MO' & LB' & _).
  rewrite MO, MO', <- (noise_same tr L st st' p q LK). destruct (linked_at _ _ _ _ _ _ _ LK S S') as (f & I & F & NR & NI & _ & HS).
  pose proof (f_equal st_public (lk_same _ _ _ _ LK)) as HP. cbn in HP. pose proof (lk_good _ _ _ _ LK) as G. pose proof (lk_good' _ _ _ _ LK) as G'.
  assert (adj' = adj) as -> by (rewrite <- (compile_hide E BL), HS, (compile_hide E BL), HP, CO' in CO; congruence).
  rewrite <- HP in CA'. destruct (same_inputs s s' _ _ _ _ _ HS CA CA' DA DA') as (-> & HD). rewrite HP in CA'.
  assert (HM : hide_measurement m = hide_measurement m').
  { pose proof (compile_hide' (e_round E) (e_world E) K BK auto so (measure_for adj) cat data adj q) as H1. pose proof (compile_hide' (e_round E) (e_world E) K BK auto so (measure_for adj) cat data' adj q) as H2.
    rewrite CM in H1. rewrite CM', <- HD, H1 in H2. cbn in H2. congruence. }
  destruct (EV p q b u eq_refl eq_refl) as (-> & PAY). pose proof (PAY s adj f S CO I) as PAY1. clear PAY EV.
  destruct (spend_amount _ _ _ VL VA NI KA SD) as (VR & NR1 & KR & NA & SUM).
  destruct (share_valid f adj F VA NA) as (VS & NS).
  assert (KS : same_kind B (share_of f adj)) by (eapply same_kind_trans; [exact (AK p s S)|eapply same_kind_trans; [exact KA|apply share_kind]]).
  assert (T1 : forall c, component c -> (0 <= total c L st1)%Q).
  { intros c Hc. apply (proj1 (qsum_in (fun e => snd e * amt c (left_at st1 (fst e)))%Q L ltac:(intros (q0, x) J; cbn [fst snd]; destruct (lk_pair _ _ _ _ LK1 q0 x J) as (F0 & s0 & _ & S0 & _ & N0 & _);
      rewrite (left_session st1 q0 s0 S0); destruct (finite_amount c (s_left s0) Hc) as (_ & P0); [apply bk_left, (session_books st1 q0); [apply LK1|exact S0]|exact N0|nra]))). }
  destruct (spend_some B (share_of f adj) V VS N KS) as (B1 & SB1).
  { intros c Hc. apply (xle_amount c B _ Hc V N VS NS). rewrite (share_amount f adj c Hc VA NA). pose proof (PAY1 c Hc). pose proof (TO c Hc). pose proof (T1 c Hc). lra. }
  destruct (spend_amount _ _ _ V VS N KS SB1) as (VB & NB & KB & _ & SUMB).
  apply (close_bind C B (share_of f adj) B1); try assumption.
  2: { intros t. apply (IH a _ _ L); try assumption; [apply HA; eauto|apply HA'; eauto| |].
       - intros q0 s0 X. eapply same_kind_trans; [apply same_kind_sym, KB|]. exact (AK1 B AK q0 s0 X).
       - intros c Hc. pose proof (PAY1 c Hc) as A1. pose proof (TO c Hc) as A2. pose proof (SUMB c Hc) as A3. rewrite (share_amount f adj c Hc VA NA) in A3. lra. }
  (* the answers *)
  destruct HO as (_ & HO), HO' as (_ & HO'). cbn [honest_call] in HO, HO'. destruct (measure_kind _ _ KA) as (MK & RK).
  destruct (HO s cat data S CA DA) as (BU & P & FI & GK & ME). destruct (HO' s' cat data' S' CA' DA') as (_ & P' & FI' & GK' & ME').
  rewrite <- (f_equal s_left HS : s_left s = s_left s') in P', FI', GK', ME'. rewrite MK in *.
  assert (M1 : measured E K auto so st p adj q s cat data m) by (constructor; assumption).
  assert (M2 : measured E K auto so st' p adj q s' cat data' m') by (constructor; try assumption; rewrite <- (f_equal s_left HS : s_left s = s_left s'); assumption).
  destruct (measured_meets _ _ _ _ _ _ _ _ _ _ _ _ G M1) as (_ & MD & MT & DG). destruct (measured_meets _ _ _ _ _ _ _ _ _ _ _ _ G' M2) as (_ & _ & MT' & DG').
  assert (NR2 : near (is_rho adj) f (look p tr) (fun x => dget x data) (fun x => dget x data')).
  { rewrite <- RK. eapply near_ext; [| |reflexivity|exact NR]; intros x; [rewrite DG|rewrite DG']; reflexivity. }
  assert (ND : noise_distance E tr st p q = made_for E (is_rho adj) (agg_gaussian (measure_for adj) q) cat data (look p tr) (agg_child q)).
  { unfold noise_distance, made_for. rewrite (proj2 (session_at_iff st p s) S), CA, DA, MK, RK. reflexivity. }
  rewrite ND.
  destruct (measured_near gone who E (is_rho adj) (agg_gaussian (measure_for adj) q) cat data data' f (look p tr) auto (proj1 F) (proj1 MT) (proj1 MT') HD
    (data_placed _ _ (tk_layout s (g_tables _ G p s S)) DA) NR2 K so (measure_for adj) MD BK adj q m m' BU eq_refl (conj P (conj P' (conj FI (conj FI' (conj GK GK'))))) CM CM') as [<-|(c & x & cs & PR & BT & AL)].
  - apply close_same, VS.
  - eapply close_more; [apply share_mono; [apply F|exact LB]|]. exact (PRO cat data data' adj q m m' c x cs _ f VA F CM CM' HM PR BT AL).
Qed.
End Play.
