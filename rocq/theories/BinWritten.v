(** Reading written bin edges back, for C05: what the text of an edge says. *)
From Coq Require Import String Ascii Bool Arith ZArith QArith Qabs Qround Lia Lqa DecimalString List.
From Verif Require Import Prelude Budget Binning BinningProofs Message Props_Message BinEdges BinEdgesProofs.
Import ListNotations.
Local Open Scope string_scope.
Local Open Scope nat_scope.

(** ** Specification *)
(** The number a string of decimal digits stands for. *)
Fixpoint digits_from (acc : Z) (s : string) : Z :=
  match s with
  | EmptyString => acc
  | String c r => digits_from (10 * acc + (Z.of_nat (nat_of_ascii c) - 48)) r
  end.
Definition digits (s : string) : Z := digits_from 0 s.
(** The characters [i .. i+n-1] of [s], read as a number. *)
Definition number_at (i n : nat) (s : string) : Z := digits (substring i n s).
(** A Python string literal without its opening quote [q]: its characters up to the closing
    quote, with escapes (quotes, backslash, tab, newline, return, hex codes) decoded, and what follows it. *)
Fixpoint read_literal (fuel : nat) (q : ascii) (s : string) : option (string * string) :=
  match fuel, s with
  | S n, String c r =>
      if Ascii.eqb c q then Some (EmptyString, r)
      else match read_char s with
           | Some (a, r') => match read_literal n q r' with Some (t, z) => Some (String a t, z) | None => None end
           | None => None
           end
  | _, _ => None
  end.

(** ** Proofs *)
Lemma digits_from_app a : forall acc b, digits_from acc (a ++ b) = digits_from (digits_from acc a) b.
Proof. induction a as [|c a IH]; intros; cbn [append digits_from]; [reflexivity|apply IH]. Qed.
Lemma digits_pad w : forall n, (0 <= n < 10 ^ Z.of_nat w)%Z -> digits (pad w n) = n.
Proof.
  unfold digits. induction w as [|w IH]; intros n Hn.
  - cbn in *. lia.
  - cbn [pad]. rewrite digits_from_app. rewrite Nat2Z.inj_succ, Z.pow_succ_r in Hn by lia.
    rewrite IH by (split; [apply Z.div_pos; lia|apply Z.div_lt_upper_bound; lia]).
    cbn [digits_from]. pose proof (Z.mod_pos_bound n 10 ltac:(lia)) as B.
    rewrite nat_ascii_embedding by lia. rewrite (Z.div_mod n 10) at 3 by lia. lia.
Qed.
Lemma substring_0 a : forall b, substring 0 (String.length a) (a ++ b) = a.
Proof. induction a as [|c a IH]; intros b; cbn [append String.length substring]; [destruct b; reflexivity|]. rewrite IH. reflexivity. Qed.
Lemma substring_skip a : forall i n b, substring (String.length a + i) n (a ++ b) = substring i n b.
Proof. induction a as [|c a IH]; intros; cbn [append String.length substring Nat.add]; [reflexivity|apply IH]. Qed.
Lemma app_empty a : a ++ "" = a.
Proof. induction a as [|c a IH]; cbn [append]; [reflexivity|]. rewrite IH. reflexivity. Qed.
Lemma at_pad w n b : number_at 0 w (pad w n ++ b) = digits (pad w n).
Proof. unfold number_at. rewrite <- (pad_length w n) at 1. rewrite substring_0. reflexivity. Qed.
Lemma at_end w n : number_at 0 w (pad w n) = digits (pad w n).
Proof. unfold number_at. f_equal. pose proof (substring_0 (pad w n) "") as H. rewrite pad_length, app_empty in H. exact H. Qed.
Lemma skip_pad w x i n b : number_at (w + i) n (pad w x ++ b) = number_at i n b.
Proof. unfold number_at. f_equal. rewrite <- (pad_length w x) at 1. apply substring_skip. Qed.
Lemma get_skip a : forall i b, String.get (String.length a + i) (a ++ b) = String.get i b.
Proof. induction a as [|c a IH]; intros; cbn [append String.length String.get Nat.add]; [reflexivity|apply IH]. Qed.
Lemma get_pad w x i b : String.get (w + i) (pad w x ++ b) = String.get i b.
Proof. rewrite <- (pad_length w x) at 1. apply get_skip. Qed.
Lemma skip_char i n c b : number_at (S i) n (String c b) = number_at i n b.
Proof. reflexivity. Qed.
Lemma get_char i c b : String.get (S i) (String c b) = String.get i b.
Proof. reflexivity. Qed.

Ltac walk := cbn [append];
  repeat (first [ rewrite skip_char | rewrite get_char
    | match goal with
      | |- context [number_at ?i ?n (pad ?w ?x ++ ?b)] =>
          lazymatch i with O => fail | _ => let j := eval compute in (i - w) in
            change (number_at i n (pad w x ++ b)) with (number_at (w + j) n (pad w x ++ b)); rewrite (skip_pad w x j n b) end
      | |- context [String.get ?i (pad ?w ?x ++ ?b)] =>
          let j := eval compute in (i - w) in
            change (String.get i (pad w x ++ b)) with (String.get (w + j) (pad w x ++ b)); rewrite (get_pad w x j b)
      end ]).

Lemma date_reads y m d rest : valid_edge (EDate y m d) ->
  let s := date_str y m d ++ rest in
  number_at 0 4 s = y /\ String.get 4 s = Some "-"%char /\ number_at 5 2 s = m
  /\ String.get 7 s = Some "-"%char /\ number_at 8 2 s = d.
Proof.
  intros V. cbn [valid_edge] in V. unfold date_str. cbv zeta. rewrite !app_assoc'.
  repeat split; walk; rewrite ?at_pad; try reflexivity; apply digits_pad; cbn; lia.
Qed.

(** What the text [s] of a datetime says: date, hour, minute, and seconds and fractions as
    far as they are written. *)
Definition reads_as (s : string) (e : edge) : Prop :=
  match e with
  | ETime y m d h mi sec us =>
      number_at 0 4 s = y /\ number_at 5 2 s = m /\ number_at 8 2 s = d
      /\ String.get 10 s = Some " "%char
      /\ number_at 11 2 s = h /\ String.get 13 s = Some ":"%char /\ number_at 14 2 s = mi
      /\ ((String.length s = 16 /\ sec = 0%Z /\ us = 0%Z)
          \/ (String.get 16 s = Some ":"%char /\ number_at 17 2 s = sec
              /\ ((String.length s = 19 /\ us = 0%Z)
                  \/ (String.get 19 s = Some "."%char
                      /\ ((String.length s = 23 /\ us = (1000 * number_at 20 3 s)%Z)
                          \/ (String.length s = 26 /\ us = number_at 20 6 s))))))
  | _ => False
  end.
Lemma number_at_date y m d i n rest : number_at (10 + i) n (date_str y m d ++ rest) = number_at i n rest.
Proof. unfold number_at. rewrite <- (date_str_length y m d). rewrite substring_skip. reflexivity. Qed.
Lemma get_at_date y m d i rest : String.get (10 + i) (date_str y m d ++ rest) = String.get i rest.
Proof. rewrite <- (date_str_length y m d). apply get_skip. Qed.

Lemma time_reads ts e : kind_of e = KTime -> valid_edge e -> shows ts e -> reads_as (time_str ts e) e.
Proof.
  destruct e as [| | | |y m d h mi sec us]; try discriminate. intros _ V Sh. cbn [valid_edge] in V.
  cbn [time_str reads_as].
  destruct (date_reads y m d (" " ++ clock_str ts h mi sec us)) as (D1 & _ & D2 & _ & D3); [cbn [valid_edge]; tauto|].
  split; [exact D1|]. split; [exact D2|]. split; [exact D3|]. clear D1 D2 D3.
  assert (Len : String.length (date_str y m d ++ " " ++ clock_str ts h mi sec us)
     = 11 + String.length (clock_str ts h mi sec us)).
  { rewrite !length_app', date_str_length. reflexivity. }
  rewrite Len.
  set (Y := " " ++ clock_str ts h mi sec us).
  rewrite (get_at_date y m d 0 Y : String.get 10 _ = _), (get_at_date y m d 3 Y : String.get 13 _ = _),
    (get_at_date y m d 6 Y : String.get 16 _ = _), (get_at_date y m d 9 Y : String.get 19 _ = _),
    (number_at_date y m d 1 2 Y : number_at 11 2 _ = _), (number_at_date y m d 4 2 Y : number_at 14 2 _ = _),
    (number_at_date y m d 7 2 Y : number_at 17 2 _ = _), (number_at_date y m d 10 3 Y : number_at 20 3 _ = _),
    (number_at_date y m d 10 6 Y : number_at 20 6 _ = _).
  unfold Y. clear Len Y.
  unfold clock_str. split; [reflexivity|].
  split; [walk; rewrite at_pad; apply digits_pad; cbn; lia|].
  split; [walk; reflexivity|].
  assert (P : forall w n, (0 <= n < 10 ^ Z.of_nat w)%Z -> number_at 0 w (pad w n) = n).
  { intros. rewrite at_end. apply digits_pad. assumption. }
  assert (P2 : forall n b, (0 <= n < 100)%Z -> number_at 0 2 (pad 2 n ++ b) = n).
  { intros. rewrite at_pad. apply digits_pad. assumption. }
  split; [walk; apply P2; lia|].
  destruct ts; cbn [shows us_of s_of] in Sh; cbv iota.
  - right. split; [walk; reflexivity|]. split; [walk; apply P2; lia|]. right. split; [walk; reflexivity|].
    right. split; [rewrite !length_app', !pad_length; reflexivity|]. walk. symmetry. apply P. cbn. lia.
  - right. split; [walk; reflexivity|]. split; [walk; apply P2; lia|]. right. split; [walk; reflexivity|].
    left. split; [rewrite !length_app', !pad_length; reflexivity|]. walk. rewrite P.
    + rewrite (Z.div_mod us 1000) at 1 by lia. lia.
    + split; [apply Z.div_pos; lia|apply Z.div_lt_upper_bound; cbn; lia].
  - right. split; [walk; reflexivity|]. split; [walk; apply (P 2); cbn; lia|].
    left. split; [rewrite !length_app', !pad_length; reflexivity|assumption].
  - left. split; [rewrite !length_app', !pad_length; reflexivity|tauto].
Qed.

Section Literals.
Variable printable : ascii -> bool.
Lemma literal_reads q : q = squote \/ q = dquote -> forall s rest n,
  String.length s < n -> read_literal n q (escaped printable q s ++ String q rest) = Some (s, rest).
Proof.
  intros Q. induction s as [|c s IH]; intros rest [|n] L; cbn [String.length] in L; try lia.
  - cbn [escaped append read_literal]. rewrite Ascii.eqb_refl. reflexivity.
  - cbn [escaped]. rewrite app_assoc'.
    destruct (escape_first printable q c (escaped printable q s ++ String q rest) Q) as (a & t & A & Na).
    cbn [read_literal]. rewrite A at 1. apply Ascii.eqb_neq in Na. rewrite Na.
    rewrite read_escape by assumption. rewrite IH by lia. reflexivity.
Qed.
End Literals.

(** Floats are written as a sign and the nearest number with [p] decimals. *)
Lemma float_reads p q : exists a b,
  float_str p (FX (XFin q))
    = (if Qlt_le_dec q 0 then "-" else "") ++ int_str a ++ "." ++ pad p b
  /\ (0 <= a)%Z /\ (0 <= b < 10 ^ Z.of_nat p)%Z
  /\ (Qabs (inject_Z (a * 10 ^ Z.of_nat p + b) - Qabs q * inject_Z (10 ^ Z.of_nat p)) <= 1 # 2)%Q.
Proof.
  cbn [float_str]. set (t := (10 ^ Z.of_nat p)%Z). set (n := nearest _).
  assert (T : (0 < t)%Z) by (apply Z.pow_pos_nonneg; lia).
  assert (N : (0 <= n)%Z).
  { unfold n, nearest. set (x := (Qabs q * inject_Z t)%Q).
    assert (X : (0 <= Qfloor x)%Z).
    { apply (Qfloor_resp_le 0 x). unfold x. apply Qmult_le_0_compat; [apply Qabs_nonneg|].
      change 0%Q with (inject_Z 0). rewrite <- Zle_Qle. lia. }
    destruct (_ ?= _)%Q; [destruct (Z.even _)|..]; lia. }
  exists (n / t)%Z, (n mod t)%Z. split; [reflexivity|]. split; [apply Z.div_pos; lia|].
  split; [apply Z.mod_pos_bound; lia|].
  replace (n / t * t + n mod t)%Z with n by (rewrite (Z.div_mod n t) at 1 by lia; lia).
  apply nearest_close.
Qed.
