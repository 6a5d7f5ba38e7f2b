(** Feature flags.  Models config.py 11-109 and the programs that use them. *)
From Coq Require Import String Bool Arith List.
From Verif Require Import Prelude.
Import ListNotations.
Local Open Scope string_scope.

(** The state of a flag: [_default] and [_enabled], 19-25. *)
Record flag : Type := { f_default : bool; f_enabled : option bool }.
(** All flags, by name; attributes of Config.Features, which is one for the whole program
    (Config is a singleton, 115-122, and flags are class attributes). *)
Definition flags := string -> flag.
Definition set_flag (n : string) (v : option bool) (s : flags) : flags :=
  fun m => if String.eqb m n then {| f_default := f_default (s m); f_enabled := v |} else s m.
(** __bool__, 27-29. *)
Definition truth (f : flag) : bool := match f_enabled f with Some b => b | None => f_default f end.
(** enable 35-37, disable 39-41, reset 43-47. *)
Definition enable (n : string) : flags -> flags := set_flag n (Some true).
Definition disable (n : string) : flags -> flags := set_flag n (Some false).
Definition reset (n : string) : flags -> flags := set_flag n None.
(** raise_if_disabled, 79-109: both messages are in RuntimeErrors. *)
Definition raise_if_disabled (f : flag) : res unit :=
  if truth f then Ok tt
  else match f_enabled f with Some false => Err RuntimeError | _ => Err RuntimeError end.

(** Programs.  [Other] is any code that does not touch flags and may or may not raise;
    conditions and the number of rounds of a loop are arbitrary. *)
Inductive stmt : Type :=
| Skip
| Enable (n : string)
| Disable (n : string)
| Reset (n : string)
| RaiseIfDisabled (n : string)
| Other
| Return
| Raise
| Seq (a b : stmt)
| Choice (a b : stmt)
| Loop (a : stmt)
| IfFlag (n : string) (a b : stmt)
| Try (a handler : stmt)
| WithEnabled (n : string) (body : stmt)
| WithDisabled (n : string) (body : stmt).
(** How a piece of program ends. *)
Inductive ending : Type := Done | Raised | Returned.

(** Execution.  The context managers, 49-62 and 64-77: the generator remembers the state
    at entry, sets the flag, runs the body at its yield, and restores the state in its
    finally block however the body ended; it swallows no exception. *)
Inductive exec : stmt -> flags -> ending -> flags -> Prop :=
| x_skip s : exec Skip s Done s
| x_enable n s : exec (Enable n) s Done (enable n s)
| x_disable n s : exec (Disable n) s Done (disable n s)
| x_reset n s : exec (Reset n) s Done (reset n s)
| x_check_ok n s : raise_if_disabled (s n) = Ok tt -> exec (RaiseIfDisabled n) s Done s
| x_check_err n s e : raise_if_disabled (s n) = Err e -> exec (RaiseIfDisabled n) s Raised s
| x_other s : exec Other s Done s
| x_other_raises s : exec Other s Raised s
| x_return s : exec Return s Returned s
| x_raise s : exec Raise s Raised s
| x_seq a b s s1 o s2 : exec a s Done s1 -> exec b s1 o s2 -> exec (Seq a b) s o s2
| x_seq_stop a b s o s1 : exec a s o s1 -> o <> Done -> exec (Seq a b) s o s1
| x_left a b s o s1 : exec a s o s1 -> exec (Choice a b) s o s1
| x_right a b s o s1 : exec b s o s1 -> exec (Choice a b) s o s1
| x_loop_end a s : exec (Loop a) s Done s
| x_loop a s s1 o s2 : exec a s Done s1 -> exec (Loop a) s1 o s2 -> exec (Loop a) s o s2
| x_loop_stop a s o s1 : exec a s o s1 -> o <> Done -> exec (Loop a) s o s1
| x_if_on n a b s o s1 : truth (s n) = true -> exec a s o s1 -> exec (IfFlag n a b) s o s1
| x_if_off n a b s o s1 : truth (s n) = false -> exec b s o s1 -> exec (IfFlag n a b) s o s1
| x_try a h s o s1 : exec a s o s1 -> o <> Raised -> exec (Try a h) s o s1
| x_caught a h s s1 o s2 : exec a s Raised s1 -> exec h s1 o s2 -> exec (Try a h) s o s2
| x_with_enabled n a s o s1 : exec a (set_flag n (Some true) s) o s1 ->
    exec (WithEnabled n a) s o (set_flag n (f_enabled (s n)) s1)
| x_with_disabled n a s o s1 : exec a (set_flag n (Some false) s) o s1 ->
    exec (WithDisabled n a) s o (set_flag n (f_enabled (s n)) s1).

(** Contexts that are entered and left one event at a time, as by several generators or
    an ExitStack; [Leave k] leaves the context that was entered as number [k]. *)
Inductive event : Type :=
| Set_ (n : string) (v : option bool)
| Enter (n : string) (v : bool)
| Leave (k : nat).
(** Flags, and what each context entered so far remembers. *)
Definition machine : Type := flags * list (string * option bool).
Definition happen (m : machine) (e : event) : machine :=
  let '(s, saved) := m in
  match e with
  | Set_ n v => (set_flag n v s, saved)
  | Enter n v => (set_flag n (Some v) s, (saved ++ [(n, f_enabled (s n))])%list)
  | Leave k => match nth_error saved k with Some (n, v) => (set_flag n v s, saved) | None => m end
  end.
Definition happens (m : machine) (l : list event) : machine := fold_left happen l m.
