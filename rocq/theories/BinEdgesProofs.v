(** Proofs about BinEdges.v: comparison of edges obeys Python's laws; written edges can be
    told apart. *)
From Coq Require Import String Ascii Bool Arith ZArith QArith Qabs Lia Lqa DecimalString DecimalZ DecimalFacts FinFun List.
From Verif Require Import Prelude Budget BudgetProofs Binning BinningProofs Message BinEdges.
Import ListNotations.
Local Open Scope string_scope.
Local Open Scope nat_scope.

(** ** Comparison *)
Lemma lex_irrefl a : lex_lt a a = false.
Proof. induction a as [|x a IH]; [reflexivity|]. cbn [lex_lt]. rewrite Z.ltb_irrefl, IH, andb_false_r. reflexivity. Qed.
Lemma lex_trans a : forall b c, lex_lt a b = true -> lex_lt b c = true -> lex_lt a c = true.
Proof.
  induction a as [|x a IH]; intros [|y b] [|z c]; cbn [lex_lt]; try discriminate; try reflexivity.
  rewrite !orb_true_iff, !andb_true_iff, !Z.ltb_lt, !Z.eqb_eq.
  intros [H|[-> H]] [G|[-> G]]; try (left; lia). right. split; [reflexivity|]. eapply IH; eauto.
Qed.
Lemma lex_tri a : forall b, lex_lt a b = true \/ list_eqb Z.eqb a b = true \/ lex_lt b a = true.
Proof.
  induction a as [|x a IH]; intros [|y b]; cbn [lex_lt list_eqb]; auto.
  rewrite !orb_true_iff, !andb_true_iff, !Z.ltb_lt, !Z.eqb_eq.
  destruct (Z.lt_trichotomy x y) as [H|[H|H]]; auto. specialize (IH b). subst. tauto.
Qed.
Lemma fields_eq a b : list_eqb Z.eqb a b = true <-> a = b.
Proof. apply list_eqb_eq. apply Z.eqb_eq. Qed.

Lemma xltb_xeq a b c : xeq a b -> xltb a c = xltb b c /\ xltb c a = xltb c b.
Proof.
  intros H. assert (H' := xeq_sym _ _ H). apply xeq_xle in H, H'.
  split; apply eq_true_iff_eq; rewrite !xltb_iff; split; intros G K; apply G; eapply xle_trans; eauto.
Qed.

Lemma number_some e : is_number e = true -> is_nan e = false -> exists x, number e = Some x.
Proof. destruct e as [z|[x|]| | | ]; cbn; try discriminate; eauto. Qed.
Lemma fields_number a b : is_number a = true -> is_number b = false -> lex_lt (fields a) (fields b) = true.
Proof. destruct a, b; try discriminate; reflexivity. Qed.
Lemma fields_number_back a b : is_number a = true -> is_number b = false ->
  list_eqb Z.eqb (fields a) (fields b) = false /\ lex_lt (fields b) (fields a) = false.
Proof. destruct a, b; try discriminate; split; reflexivity. Qed.
Lemma fields_number_same a b : is_number a = true -> is_number b = true -> fields a = fields b.
Proof. destruct a, b; try discriminate; reflexivity. Qed.

Lemma edge_lt_ok a b : edge_lt a b = true <->
  if is_number a && is_number b then exists x y, number a = Some x /\ number b = Some y /\ ~ xle y x
  else is_nan a = false /\ is_nan b = false /\ lex_lt (fields a) (fields b) = true.
Proof.
  unfold edge_lt. destruct (is_number a && is_number b).
  - destruct (number a) as [x|], (number b) as [y|]; rewrite ?xltb_iff; split; try discriminate;
      try (intros (u & v & A & B & _); congruence).
    + intros H. exists x, y. auto.
    + intros (u & v & A & B & H). congruence.
  - rewrite !andb_true_iff, !negb_true_iff. tauto.
Qed.
Lemma edge_eq_ok a b : edge_eq a b = true <->
  if is_number a && is_number b then exists x y, number a = Some x /\ number b = Some y /\ xeq x y
  else is_nan a = false /\ is_nan b = false /\ fields a = fields b.
Proof.
  unfold edge_eq. destruct (is_number a && is_number b).
  - destruct (number a) as [x|], (number b) as [y|]; rewrite ?xeqb_iff; split; try discriminate;
      try (intros (u & v & A & B & _); congruence).
    + intros H. exists x, y. auto.
    + intros (u & v & A & B & H). congruence.
  - rewrite !andb_true_iff, !negb_true_iff, fields_eq. tauto.
Qed.
Lemma nan_number e : is_nan e = true -> is_number e = true /\ number e = None.
Proof. destruct e as [z|[x|]| | | ]; cbn; try discriminate; auto. Qed.
Lemma number_not_nan e x : number e = Some x -> is_number e = true /\ is_nan e = false.
Proof. destruct e as [z|[y|]| | | ]; cbn; try discriminate; auto. Qed.

Definition edge_pyorder : pyorder edge.
Proof.
  refine {| po_lt := edge_lt; po_le := edge_le; po_eq := edge_eq; po_nan := is_nan |}.
  - intros a. apply not_true_iff_false. rewrite edge_lt_ok. destruct (is_number a) eqn:N; cbn [andb].
    + intros (x & y & A & B & H). apply H. replace y with x by congruence. apply xle_refl.
    + intros (_ & _ & H). rewrite lex_irrefl in H. discriminate.
  - intros a b c. rewrite !edge_lt_ok.
    destruct (is_number a) eqn:Na, (is_number b) eqn:Nb, (is_number c) eqn:Nc; cbn [andb].
    + intros (x & y & A & B & H) (y' & z & B' & C & G). exists x, z. repeat split; auto.
      replace y' with y in * by congruence. intros K. destruct (xle_total x y) as [L|L]; [|auto].
      apply G. eapply xle_trans; eauto.
    + intros (x & y & A & B & H) (_ & Hc & _). repeat split; auto.
      * eapply number_not_nan; eauto.
      * apply fields_number; assumption.
    + intros (_ & _ & H) (_ & _ & G). rewrite (proj2 (fields_number_back c b Nc Nb)) in G. discriminate.
    + intros (Ha & _ & _) (_ & Hc & _). repeat split; auto. apply fields_number; assumption.
    + intros (_ & _ & H). rewrite (proj2 (fields_number_back b a Nb Na)) in H. discriminate.
    + intros (_ & _ & H). rewrite (proj2 (fields_number_back b a Nb Na)) in H. discriminate.
    + intros (_ & _ & H) (_ & _ & G). rewrite (proj2 (fields_number_back c b Nc Nb)) in G. discriminate.
    + intros (Ha & _ & H) (_ & Hc & G). repeat split; auto. eapply lex_trans; eauto.
  - intros a b Ha Hb. rewrite !edge_lt_ok, edge_eq_ok.
    destruct (is_number a) eqn:Na, (is_number b) eqn:Nb; cbn [andb].
    + destruct (number_some a Na Ha) as (x & X), (number_some b Nb Hb) as (y & Y).
      destruct (xleb y x) eqn:L; [destruct (xleb x y) eqn:L'|].
      * right; left. exists x, y. repeat split; auto. apply xle_antisym; apply xleb_iff; assumption.
      * right; right. exists y, x. repeat split; auto. rewrite <- xleb_iff. congruence.
      * left. exists x, y. repeat split; auto. rewrite <- xleb_iff. congruence.
    + left. repeat split; auto. apply fields_number; assumption.
    + right; right. repeat split; auto. apply fields_number; assumption.
    + destruct (lex_tri (fields a) (fields b)) as [H|[H|H]]; [tauto| |tauto].
      apply fields_eq in H. tauto.
  - intros a b c H. apply edge_eq_ok in H.
    destruct (is_number a) eqn:Na, (is_number b) eqn:Nb; cbn [andb] in H.
    + destruct H as (x & y & A & B & H).
      pose proof (number_not_nan _ _ A) as [_ Ha]. pose proof (number_not_nan _ _ B) as [_ Hb].
      unfold edge_lt. rewrite Na, Nb, A, B, Ha, Hb, (fields_number_same a b Na Nb). cbn [andb negb].
      destruct (is_number c); [|split; reflexivity]. cbn [andb].
      destruct (number c); [|split; reflexivity]. apply xltb_xeq. assumption.
    + destruct H as (_ & _ & H). exfalso. pose proof (proj1 (fields_number_back a b Na Nb)) as G.
      apply not_true_iff_false in G. apply G, fields_eq, H.
    + destruct H as (_ & _ & H). exfalso. pose proof (proj1 (fields_number_back b a Nb Na)) as G.
      apply not_true_iff_false in G. apply G, fields_eq. auto.
    + destruct H as (Ha & Hb & H). unfold edge_lt. rewrite Na, Nb, !andb_false_r, Ha, Hb, H. cbn [andb].
      split; reflexivity.
  - intros a b. rewrite !edge_eq_ok, (andb_comm (is_number b)).
    destruct (is_number a && is_number b).
    + intros (x & y & A & B & H). exists y, x. repeat split; auto. apply xeq_sym, H.
    + intuition congruence.
  - reflexivity.
  - intros a b H. destruct (nan_number a H) as [N X]. unfold edge_lt, edge_eq. rewrite N, X, H. cbn [andb negb].
    destruct (is_number b); split; reflexivity.
  - intros a b H. destruct (nan_number b H) as [N X]. unfold edge_lt, edge_eq. rewrite N, X, H, !andb_false_r.
    destruct (is_number a), (number a); split; reflexivity.
Defined.

(** ** Strings *)
Lemma app_one_inj a : forall b c d, a ++ String c EmptyString = b ++ String d EmptyString -> a = b /\ c = d.
Proof.
  induction a as [|x a IH]; intros [|y b] c d H; cbn [append] in H.
  - injection H as H. auto.
  - injection H as H1 H2. destruct b; discriminate.
  - injection H as H1 H2. destruct a; discriminate.
  - injection H as H1 H2. destruct (IH _ _ _ H2). subst. auto.
Qed.
Lemma app_split a : forall b x y, String.length a = String.length b -> a ++ x = b ++ y -> a = b /\ x = y.
Proof.
  induction a as [|c a IH]; intros [|d b] x y L H; cbn [append String.length] in *; try discriminate; auto.
  injection H as H1 H2. injection L as L. destruct (IH _ _ _ L H2). subst. auto.
Qed.
Lemma length_app' a b : String.length (a ++ b) = String.length a + String.length b.
Proof. induction a as [|c a IH]; cbn [append String.length]; [reflexivity|]. rewrite IH. reflexivity. Qed.
Lemma app_assoc' a b c : (a ++ b) ++ c = a ++ (b ++ c).
Proof. induction a as [|x a IH]; cbn [append]; [reflexivity|]. rewrite IH. reflexivity. Qed.
Lemma no_comma_app a b : no_comma (a ++ b) <-> no_comma a /\ no_comma b.
Proof. induction a as [|x a IH]; cbn [append no_comma]; [tauto|]. rewrite IH. tauto. Qed.

Lemma pad_length w : forall n, String.length (pad w n) = w.
Proof. induction w as [|w IH]; intros n; cbn [pad]; [reflexivity|]. rewrite length_app', IH. cbn [String.length]. lia. Qed.
Lemma digit_inj a b : (0 <= a < 10)%Z -> (0 <= b < 10)%Z ->
  ascii_of_nat (48 + Z.to_nat a) = ascii_of_nat (48 + Z.to_nat b) -> a = b.
Proof.
  intros Ha Hb H. apply (f_equal nat_of_ascii) in H.
  rewrite !nat_ascii_embedding in H by lia. lia.
Qed.
Lemma pad_inj w : forall n m, (0 <= n < 10 ^ Z.of_nat w)%Z -> (0 <= m < 10 ^ Z.of_nat w)%Z ->
  pad w n = pad w m -> n = m.
Proof.
  induction w as [|w IH]; intros n m Hn Hm H.
  - cbn in Hn, Hm. lia.
  - cbn [pad] in H. apply app_one_inj in H as [H D].
    rewrite Nat2Z.inj_succ, Z.pow_succ_r in Hn, Hm by lia.
    apply digit_inj in D; try (apply Z.mod_pos_bound; lia).
    apply IH in H; [|split; [apply Z.div_pos; lia|apply Z.div_lt_upper_bound; lia]..].
    rewrite (Z.div_mod n 10), (Z.div_mod m 10) by lia. lia.
Qed.
Lemma pad_no_comma w : forall n, no_comma (pad w n).
Proof.
  induction w as [|w IH]; intros n; cbn [pad]; [exact I|]. apply no_comma_app. split; [apply IH|].
  split; [|exact I]. intros C. apply (f_equal nat_of_ascii) in C.
  pose proof (Z.mod_pos_bound n 10 ltac:(lia)) as B.
  rewrite nat_ascii_embedding in C by lia. change (nat_of_ascii ",") with 44 in C. lia.
Qed.

Lemma to_int_nonnil z : Z.to_int z <> Decimal.Pos Decimal.Nil /\ Z.to_int z <> Decimal.Neg Decimal.Nil.
Proof.
  destruct z as [|p|p]; cbn; split; try discriminate; intros H; injection H as H;
    exact (DecimalPos.Unsigned.to_uint_nonnil p H).
Qed.
Lemma int_str_inj a b : int_str a = int_str b -> a = b.
Proof.
  intros H. apply (f_equal NilZero.int_of_string) in H. unfold int_str in H.
  rewrite !NilZero.isi in H by (apply to_int_nonnil).
  injection H as H. apply (f_equal Z.of_int) in H. rewrite !DecimalZ.of_to in H. exact H.
Qed.
Lemma uint_no_comma d : no_comma (NilEmpty.string_of_uint d).
Proof. induction d; cbn [NilEmpty.string_of_uint no_comma]; try (split; [discriminate|assumption]). exact I. Qed.
Lemma int_no_comma z : no_comma (int_str z).
Proof.
  unfold int_str, NilZero.string_of_int, NilZero.string_of_uint.
  destruct (Z.to_int z) as [d|d]; destruct d; cbn [no_comma]; repeat split; try discriminate;
    apply (uint_no_comma (Decimal.D0 _)) || apply (uint_no_comma (Decimal.D1 _)) || apply uint_no_comma || exact I.
Qed.
Ltac nc :=
  repeat match goal with |- no_comma (_ ++ _) => apply no_comma_app; split end;
  match goal with
  | |- no_comma (pad _ _) => apply pad_no_comma
  | |- no_comma (int_str _) => apply int_no_comma
  | |- no_comma (String _ _) => repeat split; discriminate
  | |- no_comma EmptyString => exact I
  | _ => idtac
  end.
Lemma float_no_comma p f : no_comma (float_str p f).
Proof.
  destruct f as [[q| |]|]; cbn [float_str]; try (repeat split; discriminate).
  destruct (Qlt_le_dec q 0); nc.
Qed.

(** ** Dates and times *)
(** What datetime.date and datetime.datetime accept (not counting the length of months). *)
Definition valid_edge (e : edge) : Prop :=
  match e with
  | EDate y m d => (1 <= y <= 9999 /\ 1 <= m <= 12 /\ 1 <= d <= 31)%Z
  | ETime y m d h mi s us =>
      (1 <= y <= 9999 /\ 1 <= m <= 12 /\ 1 <= d <= 31
       /\ 0 <= h < 24 /\ 0 <= mi < 60 /\ 0 <= s < 60 /\ 0 <= us < 1000000)%Z
  | _ => True
  end.

Lemma date_str_length y m d : String.length (date_str y m d) = 10.
Proof. unfold date_str. rewrite !length_app', !pad_length. reflexivity. Qed.
Ltac cut H := apply app_split in H; [destruct H as [? H]|rewrite !pad_length; reflexivity].
Lemma app_cancel a x y : a ++ x = a ++ y -> x = y.
Proof. intros H. apply app_split in H; [tauto|reflexivity]. Qed.
Ltac skip H := apply app_cancel in H.
Lemma date_str_inj y m d y' m' d' :
  valid_edge (EDate y m d) -> valid_edge (EDate y' m' d') ->
  date_str y m d = date_str y' m' d' -> y = y' /\ m = m' /\ d = d'.
Proof.
  cbn [valid_edge]. intros V V' H. unfold date_str in H.
  cut H. skip H. cut H. skip H.
  apply (pad_inj 4) in H0; [|cbn; lia..]. apply (pad_inj 2) in H1, H; [|cbn; lia..]. auto.
Qed.
Lemma date_no_comma y m d : no_comma (date_str y m d).
Proof. unfold date_str. nc. Qed.

(** The timespec shows every non-zero field. *)
Definition shows (ts : timespec) (e : edge) : Prop :=
  match ts with
  | Microseconds => True
  | Milliseconds => (us_of e mod 1000 = 0)%Z
  | Seconds => us_of e = 0%Z
  | Minutes => us_of e = 0%Z /\ s_of e = 0%Z
  end.
Lemma timespec_shows l e : In e l -> shows (timespec_of l) e.
Proof.
  intros I. unfold timespec_of.
  destruct (existsb (fun e => negb (us_of e mod 1000 =? 0)%Z) l) eqn:A; [exact Logic.I|].
  destruct (existsb (fun e => negb (us_of e =? 0)%Z) l) eqn:B;
    [|destruct (existsb (fun e => negb (s_of e =? 0)%Z) l) eqn:C]; cbn [shows].
  - apply not_true_iff_false in A. rewrite existsb_exists in A.
    destruct (us_of e mod 1000 =? 0)%Z eqn:X; [apply Z.eqb_eq, X|]. exfalso. apply A. exists e. rewrite X. auto.
  - apply not_true_iff_false in B. rewrite existsb_exists in B.
    destruct (us_of e =? 0)%Z eqn:X; [apply Z.eqb_eq, X|]. exfalso. apply B. exists e. rewrite X. auto.
  - apply not_true_iff_false in B, C. rewrite existsb_exists in B, C. split.
    + destruct (us_of e =? 0)%Z eqn:X; [apply Z.eqb_eq, X|]. exfalso. apply B. exists e. rewrite X. auto.
    + destruct (s_of e =? 0)%Z eqn:X; [apply Z.eqb_eq, X|]. exfalso. apply C. exists e. rewrite X. auto.
Qed.
Lemma time_str_inj ts a b : kind_of a = KTime -> kind_of b = KTime -> valid_edge a -> valid_edge b ->
  shows ts a -> shows ts b -> time_str ts a = time_str ts b -> a = b.
Proof.
  destruct a as [| | | |y m d h mi s us], b as [| | | |y' m' d' h' mi' s' us']; try discriminate.
  intros _ _ V V' S S' H. cbn [time_str] in H.
  apply app_split in H as [D H]; [|rewrite !date_str_length; reflexivity].
  cbn [valid_edge] in V, V'. apply date_str_inj in D as (-> & -> & ->); [|cbn [valid_edge]; tauto..].
  skip H. unfold clock_str in H. cut H. skip H.
  apply (pad_inj 2) in H0; [|cbn; lia..].
  assert (K : mi = mi' /\ s = s' /\ us = us').
  { destruct ts; cbv iota in H; cbn [shows us_of s_of] in S, S'.
    - cut H. skip H. cut H. skip H. apply (pad_inj 2) in H1, H2; [|cbn; lia..].
      apply (pad_inj 6) in H; [|cbn; lia..]. auto.
    - cut H. skip H. cut H. skip H. apply (pad_inj 2) in H1, H2; [|cbn; lia..].
      apply (pad_inj 3) in H.
      + repeat split; auto. rewrite (Z.div_mod us 1000), (Z.div_mod us' 1000) by lia. lia.
      + split; [apply Z.div_pos; lia|apply Z.div_lt_upper_bound; cbn; lia].
      + split; [apply Z.div_pos; lia|apply Z.div_lt_upper_bound; cbn; lia].
    - cut H. skip H. apply (pad_inj 2) in H1, H; [|cbn; lia..]. repeat split; congruence.
    - cut H. apply (pad_inj 2) in H1; [|cbn; lia..]. destruct S, S'. repeat split; congruence. }
  destruct K as (-> & -> & ->). subst. reflexivity.
Qed.
Lemma time_no_comma ts e : no_comma (time_str ts e).
Proof.
  destruct e; try exact I. cbn [time_str]. unfold clock_str.
  destruct ts; nc; apply date_no_comma.
Qed.

(** ** repr *)
Section Repr.
Variable printable : ascii -> bool.

(** Reads one character of a quoted string back. *)
Definition unhex (c : ascii) : nat := let n := nat_of_ascii c in if n <? 58 then n - 48 else n - 87.
Definition read_char (s : string) : option (ascii * string) :=
  match s with
  | EmptyString => None
  | String c r =>
      if Ascii.eqb c backslash then
        match r with
        | String "t" r' => Some ("009"%char, r')
        | String "n" r' => Some ("010"%char, r')
        | String "r" r' => Some ("013"%char, r')
        | String "x" (String a (String b r')) => Some (ascii_of_nat (16 * unhex a + unhex b), r')
        | String c' r' => Some (c', r')
        | EmptyString => None
        end
      else Some (c, r)
  end.
Lemma escape_local q c : escape printable q c = escape (fun _ => printable c) q c.
Proof. reflexivity. Qed.
End Repr.
Lemma read_escape_aux p q c r : q = squote \/ q = dquote ->
  read_char (escape (fun _ => p) q c ++ r) = Some (c, r).
Proof.
  intros [-> | ->]; destruct p; destruct c as [b0 b1 b2 b3 b4 b5 b6 b7];
    destruct b0, b1, b2, b3, b4, b5, b6, b7; vm_compute; reflexivity.
Qed.

Section Repr2.
Variable printable : ascii -> bool.
Lemma read_escape q c r : q = squote \/ q = dquote -> read_char (escape printable q c ++ r) = Some (c, r).
Proof. intros Q. rewrite escape_local. apply read_escape_aux. assumption. Qed.
Lemma escape_first q c r : q = squote \/ q = dquote ->
  exists a t, escape printable q c ++ r = String a t /\ a <> q.
Proof.
  intros Q. unfold escape.
  assert (B : backslash <> q) by (destruct Q; subst; discriminate).
  destruct (Ascii.eqb c q || Ascii.eqb c backslash) eqn:E; [do 2 eexists; split; [reflexivity|exact B]|].
  apply orb_false_iff in E as [E _]. apply Ascii.eqb_neq in E.
  repeat match goal with |- context [if ?b then _ else _] => destruct b end;
    do 2 eexists; (split; [reflexivity|]); assumption.
Qed.
(** A quoted string ends where its closing quote is. *)
Lemma escaped_inj q : q = squote \/ q = dquote -> forall s s' x y,
  escaped printable q s ++ String q x = escaped printable q s' ++ String q y -> s = s' /\ x = y.
Proof.
  intros Q. induction s as [|c s IH]; intros [|c' s'] x y H; cbn [escaped append] in H.
  - injection H as H. auto.
  - exfalso. rewrite app_assoc' in H.
    destruct (escape_first q c' (escaped printable q s' ++ String q y) Q) as (a & t & A & N). congruence.
  - exfalso. rewrite app_assoc' in H.
    destruct (escape_first q c (escaped printable q s ++ String q x) Q) as (a & t & A & N). congruence.
  - rewrite !app_assoc' in H. apply (f_equal read_char) in H. rewrite !read_escape in H by assumption.
    injection H as -> H. destruct (IH _ _ _ H) as [-> ->]. auto.
Qed.
Lemma quote_of_or s : quote_of s = squote \/ quote_of s = dquote.
Proof. unfold quote_of. destruct (_ && _)%bool; auto. Qed.
Lemma repr_split s s' x y : repr printable s ++ x = repr printable s' ++ y -> s = s' /\ x = y.
Proof.
  unfold repr. cbn [append]. intros H. injection H as Q H. rewrite !app_assoc' in H. cbn [append] in H.
  rewrite <- Q in H. exact (escaped_inj _ (quote_of_or s) _ _ _ _ H).
Qed.
Lemma repr_inj s s' : repr printable s = repr printable s' -> s = s'.
Proof. intros H. apply (repr_split s s' "" ""). rewrite H. reflexivity. Qed.

(** ** _edges_as_str *)
Lemma sorted_NoDup (l : list edge) : sorted_edges edge edge_pyorder l -> NoDup l.
Proof.
  intros S. apply NoDup_nth_error. intros i j Hi Hij.
  destruct (nth_error l i) as [a|] eqn:A; [|apply nth_error_None in A; lia]. symmetry in Hij.
  destruct (Nat.lt_trichotomy i j) as [L|[L|L]]; [|exact L|].
  - pose proof (S _ _ _ _ L A Hij) as H. rewrite (po_irrefl edge edge_pyorder) in H. discriminate.
  - pose proof (S _ _ _ _ L Hij A) as H. rewrite (po_irrefl edge edge_pyorder) in H. discriminate.
Qed.
Lemma NoDup_map_on {A B} (f : A -> B) l :
  (forall x y, In x l -> In y l -> f x = f y -> x = y) -> NoDup l -> NoDup (map f l).
Proof.
  induction l as [|a l IH]; intros I N; [constructor|]. inversion N; subst. constructor.
  - intros K. apply in_map_iff in K as (y & E & Y). apply I in E; [|right; assumption|left; reflexivity]. congruence.
  - apply IH; [|assumption]. intros x y X Y. apply I; right; assumption.
Qed.
Lemma edge_kind_all l k : edge_kind l = Ok k -> forall e, In e l -> kind_of e = k.
Proof.
  destruct l as [|e0 r]; [discriminate|]. cbn [edge_kind].
  destruct (forallb _ r) eqn:F; [|discriminate]. intros H; injection H as <-. intros e [->|I]; [reflexivity|].
  rewrite forallb_forall in F. apply F in I. destruct (kind_of e), (kind_of e0); try discriminate; reflexivity.
Qed.

(** Float edges are written with the smallest precision that tells them apart. *)
Lemma float_precision {E} (fmt : nat -> E -> string) edges :
  match edges_as_str_float fmt edges with
  | Ok l => exists p, 2 <= p <= 16 /\ l = map (fmt p) edges /\ NoDup l
              /\ forall p', 2 <= p' < p -> ~ NoDup (map (fmt p') edges)
  | Err e => e = RuntimeError /\ forall p, 2 <= p <= 16 -> ~ NoDup (map (fmt p) edges)
  end.
Proof.
  unfold edges_as_str_float.
  set (dist := fun l : list string => Nat.eqb (length (fromkeys String.eqb l)) (length l)).
  assert (D : forall l, dist l = true <-> NoDup l).
  { intros l. unfold dist. rewrite Nat.eqb_eq. split; [apply fromkeys_length_NoDup|].
    intros N. unfold fromkeys. f_equal. apply (dedup_aux_id String.eqb String.eqb_eq); auto. }
  set (f := fun acc p => match acc with Some _ => acc | None => _ end).
  assert (St : forall ps l, fold_left f ps (Some l) = Some l) by (induction ps; cbn; auto).
  assert (G : forall n a,
     match fold_left f (seq a n) None with
     | Some l => exists p, a <= p < a + n /\ l = map (fmt p) edges /\ NoDup l
                  /\ forall p', a <= p' < p -> ~ NoDup (map (fmt p') edges)
     | None => forall p, a <= p < a + n -> ~ NoDup (map (fmt p) edges)
     end).
  { induction n as [|n IH]; intros a; cbn [seq fold_left]; [intros; lia|].
    unfold f at 2. destruct (dist (map (fmt a) edges)) eqn:Da; fold (dist (map (fmt a) edges)); rewrite Da.
    - rewrite St. exists a. split; [lia|]. split; [reflexivity|]. split; [apply D, Da|]. intros; lia.
    - assert (Na : ~ NoDup (map (fmt a) edges)) by (rewrite <- D; congruence).
      specialize (IH (S a)). destruct (fold_left f (seq (S a) n) None) as [l|].
      + destruct IH as (p & P & L & N & Q). exists p. split; [lia|]. split; [assumption|]. split; [assumption|].
        intros p' P'. destruct (Nat.eq_dec p' a) as [->|]; [assumption|]. apply Q. lia.
      + intros p P. destruct (Nat.eq_dec p a) as [->|]; [assumption|]. apply IH. lia. }
  specialize (G 15 2). destruct (fold_left f (seq 2 15) None) as [l|].
  - destruct G as (p & P & L & N & Q). exists p. split; [lia|]. auto.
  - split; [reflexivity|]. intros p P. apply G. lia.
Qed.
Lemma edges_as_str_float_complete {E} (fmt : nat -> E -> string) edges p :
  2 <= p <= 16 -> NoDup (map (fmt p) edges) -> exists l, edges_as_str_float fmt edges = Ok l.
Proof.
  intros P N. pose proof (float_precision fmt edges) as G.
  destruct (edges_as_str_float fmt edges); [eauto|]. exfalso. destruct G as [_ G]. exact (G p P N).
Qed.

(** Strings that can be read off in front of a comma: those without one, and quoted ones. *)
Definition readable (k : kind) (s : string) : Prop :=
  match k with KStr => exists e, s = repr printable e | _ => no_comma s end.
Lemma readable_split k a b x y : readable k a -> readable k b ->
  a ++ String "," x = b ++ String "," y -> a = b.
Proof.
  destruct k; cbn [readable]; try apply split_at_comma.
  intros (e & ->) (e' & ->) H. apply repr_split in H as [-> _]. reflexivity.
Qed.

Lemma edges_as_str_ok l k : 2 <= length l -> edge_kind l = Ok k -> sorted_edges edge edge_pyorder l ->
  (forall e, In e l -> valid_edge e) ->
  match edges_as_str printable l with
  | Ok es => length es = length l /\ NoDup es /\ (forall s, In s es -> readable k s)
  | Err e => k = KFloat /\ e = RuntimeError
  end.
Proof.
  intros L K S V. pose proof (edge_kind_all l k K) as A. pose proof (sorted_NoDup l S) as D.
  destruct l as [|e0 r] eqn:El; [cbn in L; lia|]. rewrite <- El in *.
  assert (K0 : kind_of e0 = k) by (apply A; rewrite El; left; reflexivity).
  assert (C : edges_as_str printable l = match k with
     | KFloat => edges_as_str_float (fun p e => float_str p (as_float e)) l
     | KTime => Ok (map (time_str (timespec_of l)) l)
     | KStr => Ok (map (fun e => repr printable (as_str e)) l)
     | _ => Ok (map plain_str l) end).
  { rewrite El in *. subst k. destruct e0; reflexivity. }
  rewrite C. clear C. destruct k.
  - split; [apply map_length|]. split.
    + apply NoDup_map_on; [|exact D]. intros x y X Y H. apply A in X, Y.
      destruct x, y; try discriminate. cbn [plain_str] in H. apply int_str_inj in H. subst. reflexivity.
    + intros s I. apply in_map_iff in I as (e & <- & I). apply A in I. destruct e; try discriminate. apply int_no_comma.
  - destruct (edges_as_str_float _ l) as [es|err] eqn:F.
    + destruct (edges_as_str_float_spec _ _ _ F) as (ND & p & _ & ->). split; [apply map_length|].
      split; [assumption|]. intros s I. apply in_map_iff in I as (e & <- & I). apply float_no_comma.
    + unfold edges_as_str_float in F. destruct (fold_left _ _ _) in F; [discriminate|]. split; congruence.
  - split; [apply map_length|]. split.
    + apply NoDup_map_on; [|exact D]. intros x y X Y H. apply A in X, Y.
      destruct x, y; try discriminate. cbn [as_str] in H. apply repr_inj in H. subst. reflexivity.
    + intros s I. apply in_map_iff in I as (e & <- & I). cbn [readable]. eauto.
  - split; [apply map_length|]. split.
    + apply NoDup_map_on; [|exact D]. intros x y X Y H. pose proof (V _ X) as VX. pose proof (V _ Y) as VY.
      apply A in X, Y. destruct x, y; try discriminate. cbn [plain_str] in H.
      apply date_str_inj in H as (-> & -> & ->); auto.
    + intros s I. apply in_map_iff in I as (e & <- & I). apply A in I. destruct e; try discriminate. apply date_no_comma.
  - split; [apply map_length|]. split.
    + apply NoDup_map_on; [|exact D]. intros x y X Y H.
      apply (time_str_inj (timespec_of l)); auto using timespec_shows.
    + intros s I. apply in_map_iff in I as (e & <- & I). apply time_no_comma.
Qed.
End Repr2.
