(** Model of src/tmlt/analytics/_noise_info.py: what Session._noise_info reports about the
    noise of a measurement. *)
From Coq Require Import String Bool Arith ZArith QArith Lia List.
From Verif Require Import Prelude.
Import ListNotations.
Local Open Scope string_scope.
Local Open Scope nat_scope.

(** Python objects, as far as _get_info (71-128) tells them apart.  Keys of dictionaries are
    strings; numbers other than ExactNumber, None, enums etc. are [PAtom]; [PObject] is anything
    else with a __dict__.  Objects are finite trees: no cycles through attributes. *)
Inductive pobj : Type :=
| PAtom
| PString (s : string)
| PExact (q : Q)                                       (* ExactNumber *)
| PFrame (columns : list string)                       (* Spark DataFrame *)
| PMeasure (cls : string) (fields : dict pobj)         (* Measurement or Transformation *)
| PObject (fields : dict pobj)
| PDict (entries : dict pobj)
| PList (l : list pobj)
| PTuple (l : list pobj)
| PSet (l : list pobj).

(** What _get_info returns. *)
Inductive info : Type :=
| IAtom
| IString (s : string)
| IFloat (q : Q)
| IDict (entries : dict info)
| IList (l : list info)
| ITuple (l : list info)
| ISet (l : list info).

(** Members of sets must be hashable: dictionaries, lists and sets are not, nor are tuples
    that hold any. *)
Fixpoint hashable (i : info) : bool :=
  match i with
  | IAtom | IString _ | IFloat _ => true
  | ITuple l => forallb hashable l
  | IDict _ | IList _ | ISet _ => false
  end.

Section Info.
(** ExactNumber.to_float(round_up=False). *)
Variable to_float : Q -> Q.
(** str(df.columns) in the text that stands for a data frame. *)
Variable frame_text : list string -> string.

(** _get_info, 71-128.  The attribute dictionary of a measurement gets the entry "name" last:
    an attribute of that name is overwritten in its place. *)
Fixpoint get_info (o : pobj) : res info :=
  match o with
  | PAtom => Ok IAtom
  | PString s => Ok (IString s)
  | PExact q => Ok (IFloat (to_float q))
  | PFrame cols => Ok (IString (frame_text cols))
  | PMeasure cls fields =>
      let* d := (fix entries (l : dict pobj) : res (dict info) :=
        match l with [] => Ok [] | (k, v) :: l => let* x := get_info v in let* r := entries l in Ok ((k, x) :: r) end) fields in
      Ok (IDict (dset "name" (IString cls) d))
  | PObject fields | PDict fields =>
      let* d := (fix entries (l : dict pobj) : res (dict info) :=
        match l with [] => Ok [] | (k, v) :: l => let* x := get_info v in let* r := entries l in Ok ((k, x) :: r) end) fields in
      Ok (IDict d)
  | PList l =>
      let* r := (fix each (l : list pobj) : res (list info) :=
        match l with [] => Ok [] | v :: l => let* x := get_info v in let* r := each l in Ok (x :: r) end) l in Ok (IList r)
  | PTuple l =>
      let* r := (fix each (l : list pobj) : res (list info) :=
        match l with [] => Ok [] | v :: l => let* x := get_info v in let* r := each l in Ok (x :: r) end) l in Ok (ITuple r)
  | PSet l =>
      let* r := (fix each (l : list pobj) : res (list info) :=
        match l with [] => Ok [] | v :: l => let* x := get_info v in let* r := each l in Ok (x :: r) end) l in
      let* _ := raise_if (negb (forallb hashable r)) TypeError in Ok (ISet r)
  end.

(** _NoiseMechanism, 49-68. *)
Inductive mechanism : Type := LAPLACE | GEOMETRIC | DISCRETE_GAUSSIAN | EXPONENTIAL | GAUSSIAN.
(** The class names and parameters that _noise_from_info knows, 163-200. *)
Definition known (name : string) : option (mechanism * string) :=
  if String.eqb name "AddLaplaceNoise" then Some (LAPLACE, "_scale")
  else if String.eqb name "AddDiscreteGaussianNoise" then Some (DISCRETE_GAUSSIAN, "_sigma_squared")
  else if String.eqb name "AddGaussianNoise" then Some (GAUSSIAN, "_sigma_squared")
  else if String.eqb name "AddGeometricNoise" then Some (GEOMETRIC, "_alpha")
  else if String.eqb name "NoisyQuantile" then Some (EXPONENTIAL, "_epsilon")
  else None.
(** _noise_from_info, 151-214.  The members of a set come in no particular order; the model
    uses the order given. *)
Fixpoint noise_from_info (i : info) : res (list (mechanism * info)) :=
  match i with
  | IDict d =>
      match match dget "name" d with Some (IString n) => known n | _ => None end with
      | Some (m, p) => match dget p d with Some x => Ok [(m, x)] | None => Err KeyError end
      | None => (fix values (d : dict info) : res (list (mechanism * info)) :=
          match d with [] => Ok [] | (_, v) :: d => let* x := noise_from_info v in let* r := values d in Ok (x ++ r)%list end) d
      end
  | IList l | ITuple l | ISet l =>
      (fix each (l : list info) : res (list (mechanism * info)) :=
        match l with [] => Ok [] | v :: l => let* x := noise_from_info v in let* r := each l in Ok (x ++ r)%list end) l
  | IAtom | IString _ | IFloat _ => Ok []
  end.
(** _noise_from_measurement, 131-137; NoiseInfo (24-46) is the list. *)
Definition noise_from_measurement (m : pobj) : res (list (mechanism * info)) :=
  let* i := get_info m in noise_from_info i.
End Info.

(** _NoiseMechanism.to_cls, _noise_info.py 56-68: the name of the class of tmlt.core.  The last
    branch (68) is not reachable. *)
Definition to_cls (m : mechanism) : string :=
  match m with
  | LAPLACE => "AddLaplaceNoise"
  | GEOMETRIC => "AddGeometricNoise"
  | DISCRETE_GAUSSIAN => "AddDiscreteGaussianNoise"
  | EXPONENTIAL => "NoisyQuantile"
  | GAUSSIAN => "AddGaussianNoise"
  end.
(** _inverse_cdf, _noise_info.py 140-148.  [core] is the function inverse_cdf of a class of
    tmlt.core, applied to a parameter and a probability. *)
Definition inverse_cdf (core : string -> info -> Q -> res Q) (noise : mechanism * info) (p : Q) : res Q :=
  core (to_cls (fst noise)) (snd noise) p.
