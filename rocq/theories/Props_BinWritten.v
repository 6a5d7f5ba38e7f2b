(** Property C05: the generated name of a bin shows its edges.  Reading back: [digits],
    [number_at], [read_literal], [reads_as] (BinWritten.v). *)
From Coq Require Import String Ascii Bool Arith ZArith QArith Qabs Lia DecimalString List.
From Verif Require Import Prelude Budget Binning BinningProofs BinEdges BinEdgesProofs BinWritten.
Import ListNotations.
Local Open Scope string_scope.
Local Open Scope nat_scope.

Lemma Ok_inj {A} (a b : A) : Ok a = Ok b -> a = b.
Proof. congruence. Qed.

(** Edge number [i] is written as string number [i], and the string says what the edge is:
    ints in decimal, dates as YYYY-MM-DD, datetimes with a time of day, strings as Python
    literals (quoted by the first character), floats as the nearest number with two to
    sixteen decimals. *)
Theorem C05_written_edges_read_back :
  forall printable edges k es i e s,
    2 <= length edges -> edge_kind edges = Ok k ->
    edges_as_str printable edges = Ok es ->
    nth_error edges i = Some e -> nth_error es i = Some s -> valid_edge e ->
    match e with
    | EInt z => option_map Z.of_int (NilZero.int_of_string s) = Some z
    | EDate y m d =>
        String.length s = 10 /\ number_at 0 4 s = y /\ String.get 4 s = Some "-"%char
        /\ number_at 5 2 s = m /\ String.get 7 s = Some "-"%char /\ number_at 8 2 s = d
    | ETime _ _ _ _ _ _ _ => reads_as s e
    | EStr t => exists q r, s = String q r /\ (q = squote \/ q = dquote)
                  /\ read_literal (String.length s) q r = Some (t, "")
    | EFloat (FX (XFin x)) =>
        exists p a b, 2 <= p <= 16
          /\ s = (if Qlt_le_dec x 0 then "-" else "") ++ int_str a ++ "." ++ pad p b
          /\ String.length (pad p b) = p /\ digits (pad p b) = b /\ (0 <= a)%Z
          /\ (Qabs (inject_Z (a * 10 ^ Z.of_nat p + b) - Qabs x * inject_Z (10 ^ Z.of_nat p)) <= 1 # 2)%Q
    | EFloat (FX XPInf) => s = "inf"
    | EFloat (FX XNInf) => s = "-inf"
    | EFloat FNaN => s = "nan"
    end.
Proof.
  intros printable edges k es i e s L K Es He Hs V.
  destruct edges as [|e0 r] eqn:Ee; [cbn in L; lia|].
  assert (Ke : kind_of e = k) by (apply (edge_kind_all _ _ K); eapply nth_error_In; eauto).
  assert (K0 : kind_of e0 = k) by (apply (edge_kind_all _ _ K); left; reflexivity).
  assert (M : forall f : edge -> string, es = map f (e0 :: r) -> s = f e).
  { intros f ->. rewrite (map_nth_error f _ _ He) in Hs. congruence. }
  destruct e as [z|f|t|y m d|y m d h mi sec us]; cbn in Ke; subst k; destruct e0; try discriminate;
    cbn [edges_as_str] in Es.
  - apply Ok_inj in Es. symmetry in Es. apply M in Es. subst s. cbn [plain_str].
    unfold int_str. rewrite NilZero.isi by apply to_int_nonnil. cbn [option_map]. rewrite DecimalZ.of_to. reflexivity.
  - destruct (edges_as_str_float_spec _ _ _ Es) as (_ & p & P & Em). apply M in Em. subst s. cbn [as_float].
    destruct f as [[x| |]|]; try reflexivity.
    destruct (float_reads p x) as (a & b & -> & A & B & Q). exists p, a, b.
    repeat (split; [first [assumption|reflexivity|apply pad_length|apply digits_pad; assumption]|]). assumption.
  - apply Ok_inj in Es. symmetry in Es. apply M in Es. subst s. cbn [as_str].
    unfold repr. do 2 eexists. split; [reflexivity|]. split; [apply quote_of_or|].
    cbn [String.length]. apply literal_reads; [apply quote_of_or|].
    rewrite length_app'. cbn [String.length].
    assert (G : forall q t, String.length t <= String.length (escaped printable q t)).
    { intros q. induction t0 as [|c t0 IH]; cbn [escaped String.length]; [lia|]. rewrite length_app'.
      assert (1 <= String.length (escape printable q c)); [|lia].
      unfold escape. repeat match goal with |- context [if ?b then _ else _] => destruct b end; cbn [String.length]; lia. }
    specialize (G (quote_of t) t). lia.
  - apply Ok_inj in Es. symmetry in Es. apply M in Es. subst s. cbn [plain_str].
    split; [apply date_str_length|]. pose proof (date_reads y m d "" V) as H. rewrite app_empty in H. exact H.
  - apply Ok_inj in Es. symmetry in Es. apply M in Es. subst s.
    apply time_reads; [reflexivity|assumption|]. apply timespec_shows. eapply nth_error_In; eauto.
Qed.
Print Assumptions C05_written_edges_read_back.

Example C05_written_case :
  edges_as_str (fun _ => true) [ETime 2024 1 31 9 5 0 0; ETime 2024 2 1 0 0 30 0]
    = Ok ["2024-01-31 09:05:00"; "2024-02-01 00:00:30"]
  /\ edges_as_str (fun _ => true) [EFloat (FX (XFin (-1#3))); EFloat (FX (XFin (1#1000))); EFloat (FX (XFin (4#1000)))]
    = Ok ["-0.333"; "0.001"; "0.004"]
  /\ edges_as_str (fun _ => true) [EStr "it's"; EStr (String "001"%char "z")] = Ok ["""it's"""; "'\x01z'"]
  /\ valid_edge (ETime 2024 2 1 0 0 30 0).
Proof. repeat split; try (vm_compute; reflexivity); vm_compute; congruence. Qed.
