(** Specification vocabulary for the privacy guarantee of a session over all protected
    changes: what is tracked about the tables of sessions, an analyst who chooses every call
    from the answers so far, and neighbouring datasets. *)
From Coq Require Import String Bool Arith ZArith QArith Qcanon Lia Permutation List.
From Verif Require Import Prelude Budget BudgetProofs Value Rows Constraints ConstraintsSpec Schema Query Transform TransformSpec Tables Accountant Session SessionSpec SessionNames SessionTables SessionInv SessionSound
  Neighboring NeighboringSpec Builder BuilderCalls BuilderNeighbours Measure MeasureProofs BlindSpec BlindMeasure SensitivitySpec Props_Measure PrivacySpec FullPrivacySpec.
Import ListNotations.
Local Open Scope string_scope.
Local Open Scope nat_scope.

(** ** Tracked distances *)
(** How far two neighbouring datasets can be apart: for every table without IDs in rows
    (squared under zCDP), for every ID space in IDs (squared under zCDP).  This is the d_in of
    the session's accountant (tmlt.core), which session.py hands to core: from the protected
    changes (405-453), through the stability of views (1240-1245) and of partitions
    (1590-1602). *)
Record distances : Type := { of_table : string -> nat; of_space : string -> nat }.
Definition tracked : Type := list (path * distances).
Fixpoint look (p : path) (tr : tracked) : distances :=
  match tr with
  | [] => {| of_table := fun _ => 0; of_space := fun _ => 0 |}
  | (q, d) :: tr => if path_eq_dec q p then d else look p tr
  end.
(** A new session: the distances that the protected changes stand for. *)
Definition count_of (rho : bool) (d : option distance) : nat :=
  match d with
  | Some d => Z.to_nat (if rho then squared d else match d with DExact n => n | DRoot n m => n * m end)
  | None => 0
  end.
Definition start_tracked (rho : bool) (din : list (ident * distance)) : tracked :=
  [([], {| of_table := fun n => count_of rho (iget (NamedTable n) din); of_space := fun s => count_of rho (iget (TableCollection s) din) |})].
(** The parts of a table without IDs are together as far apart as the table.  One ID is in at
    most [k] parts after a truncation to [k] groups, and has at most [m] rows in all parts
    together after a truncation to [m] rows. *)
Definition part_distances (rho : bool) (cs : list constraint) (t : vtab) (src col : string) (d : distances) : distances :=
  match v_coll t with
  | None => {| of_table := fun _ => of_table d src; of_space := fun _ => 0 |}
  | Some sp =>
      match partition_constraint col cs with
      | Some (MaxGroupsPerID _ k) => {| of_table := fun _ => 0; of_space := fun _ => k * of_space d sp |}
      | Some (MaxRowsPerID m) => {| of_table := fun _ => times rho m * of_space d sp; of_space := fun _ => 0 |}
      | _ => {| of_table := fun _ => 0; of_space := fun _ => 0 |}
      end
  end.
(** The ID space of the tables that a query reads: they are all in the same one. *)
Definition read_space (data : dict vtab) (q : query) : option string :=
  match sources q with n :: _ => match dget n data with Some t => v_coll t | None => None end | [] => None end.

Section Privacy.
Variable E : env.
Variable K : core.
Variable auto : bool.
Variable so : list string -> list string.
Variable C : closeness.
(** What running a measurement answers, when it was made for a distance. *)
Variable noisy : nat -> measurement -> dist C table.
Notation W := (e_world E).

(** What is tracked after a call. *)
Definition view_distances (s : sess) (pub : dict sframe) (q : query) (n : string) (d : distances) : distances :=
  let rho := is_rho (s_left s) in
  match catalog_of (s_tree s) pub (s_cons s), data_of (s_tree s) with
  | Ok cat, Ok data => {| of_table := fun m => if String.eqb m n then reach rho W rho cat (hide_all data) (of_table d) q else of_table d m; of_space := of_space d |}
  | _, _ => d
  end.
Definition track (tr : tracked) (st : state) (o : op) : tracked :=
  match o, snd (step E st o) with
  | CreateView p q n _, Ok _ =>
      match session_at st p with Ok s => (p, view_distances s (st_public st) q n (look p tr)) :: tr | Err _ => tr end
  | Partition p src _ col splits, Ok _ =>
      match find p (st_root st) with
      | Some c => match dget src (named (s_tree (a_data c))) with
                  | Some t => (map (fun i => ((p ++ [(length (a_parts c), i)])%list,
                                 part_distances (is_rho (s_left (a_data c))) (match dget src (s_cons (a_data c)) with Some cs => cs | None => [] end) t src col (look p tr)))
                              (seq 0 (length splits)) ++ tr)%list
                  | None => tr
                  end
      | None => tr
      end
  | _, _ => tr
  end.
(** The distance that the measurement of an aggregation is made for. *)
Definition noise_distance (tr : tracked) (st : state) (p : path) (q : query) : nat :=
  match session_at st p with
  | Ok s =>
      match catalog_of (s_tree s) (st_public st) (s_cons s), data_of (s_tree s) with
      | Ok cat, Ok data =>
          match read_space data (agg_child q) with
          | Some sp => of_space (look p tr) sp
          | None => reach (is_rho (s_left s)) W (agg_gaussian (measure_for (s_left s)) q) cat (hide_all data) (of_table (look p tr)) (agg_child q)
          end
      | _, _ => 0
      end
  | Err _ => 0
  end.

(** ** Interaction *)
(** The distribution of all replies, for at most [n] calls. *)
Fixpoint converse (n : nat) (a : analyst) (hist : list reply) (tr : tracked) (st : state) : dist C (list reply) :=
  match n with
  | 0 => ret C hist
  | S n =>
      match a hist with
      | None => ret C hist
      | Some o =>
          match o, snd (step E st o) with
          | Evaluate p q b, Ok _ =>
              match measurement_of E K auto so st p q b with
              | Ok m => dbind C (noisy (noise_distance tr st p q) m) (fun t => converse n a (hist ++ [Answer t])%list (track tr st o) (fst (step E st o)))
              | Err e => converse n a (hist ++ [Done (Err e)])%list (track tr st o) (fst (step E st o))
              end
          | _, r => converse n a (hist ++ [Done r])%list (track tr st o) (fst (step E st o))
          end
      end
  end.
(** Calls that keep to what users promise (C49, C53, [groups_kept]). *)
Definition honest_call (st : state) (o : op) : Prop :=
  honest_op E true st o
  /\ match o with
     | Evaluate p q b => forall s cat data, session st p s -> catalog_of (s_tree s) (st_public st) (s_cons s) = Ok cat -> data_of (s_tree s) = Ok data ->
         let l2 := agg_gaussian (measure_for (s_left s)) q in
         built auto q /\ promises W l2 cat data (agg_child q) /\ finite_ids W l2 cat data (agg_child q) /\ groups_kept W l2 cat data (agg_child q)
         /\ (l2 = is_rho (s_left s) \/ forall n t, dget n (named (s_tree s)) = Some t -> grouping_column (v_place t) = None)
     | CreateView p q _ _ => forall s cat data, session st p s -> catalog_of (s_tree s) (st_public st) (s_cons s) = Ok cat -> data_of (s_tree s) = Ok data ->
         groups_kept W (is_rho (s_left s)) cat data q
     | _ => True
     end.
Fixpoint honest_analyst (n : nat) (a : analyst) (hist : list reply) (st : state) : Prop :=
  match n with
  | 0 => True
  | S n =>
      match a hist with
      | None => True
      | Some o => honest_call st o /\ forall r, possible E st o r -> honest_analyst n a (hist ++ [r])%list (fst (step E st o))
      end
  end.

(** ** Core's part *)
(** A share of a budget. *)
Definition share_of (f : Q) (b : budget) : budget :=
  let part x := match x with XFin q => XFin (f * q)%Q | x => x end in
  match b with Pure e => Pure (part e) | Approx e d => Approx (part e) (part d) | Zcdp r => Zcdp (part r) end.
(** What two measurements of an aggregation read, [t] and [t'], is apart by no more than the
    share [f] of the distance [N] they were made for.  Both tables are obtained row by row, and
    without changing the grouping columns [gr]:
    - from tables without IDs that are apart by the share of [N] rows (squared under zCDP);
    - from tables with IDs that one ID makes different, where the share of [N] IDs allows for
      one, by the truncation for the constraints [cs].
    [x] tells which, and in what metric rows are counted. *)
Definition allowed (mu : measure) (rho : bool) (gr : list string) (cs : list constraint) (x : vtab) (f : Q) (N : nat) (t t' : vtab) : Prop :=
  match v_coll x with
  | None => exists a a' g, within rho f N (v_place x) a a'
      /\ v_rows t = map g a /\ v_rows t' = map g a' /\ forall col r, In col gr -> getv col (g r) = getv col r
  | Some _ => portion f 1 N /\ (apart_at_most so mu 1 gr cs t t' \/ apart_at_most so mu 1 gr cs t' t)
  end.
(** When an aggregation is compiled over two versions of the data, and what the two
    measurements read is apart by no more than the share [f] of the distance they were made
    for, then the answers are within that share of the privacy loss that the measurement
    reports. *)
Definition proportionate : Prop := forall cat data data' b q m m' c x cs N f, valid b -> (0 <= f <= 1)%Q ->
  compile (e_round E) W K auto so (measure_for b) cat data b q = Ok m ->
  compile (e_round E) W K auto so (measure_for b) cat data' b q = Ok m' ->
  hide_measurement m = hide_measurement m' ->
  prepared (agg_child q) c -> build_transformation W (agg_gaussian (measure_for b) q) cat data c = Ok (x, cs) ->
  allowed (measure_for b) (is_rho b) (agg_columns q) cs x f N (table_of m) (table_of m') ->
  close C (share_of f (privacy_loss K m)) (noisy N m) (noisy N m').
End Privacy.

(** ** Neighbouring datasets *)
(** The same call on a builder; the private table is changed no more than its protected change
    says: rows and groups table by table, and in every ID space [s] all rows of the one ID
    [who s] are removed ([gone s]) or added. *)
Definition changed_call (gone : string -> bool) (who : string -> value) (c c' : bcall) : Prop :=
  match c, c' with
  | WithPrivate n f x, WithPrivate n' f' x' =>
      n = n' /\ x = x' /\ sd_fields f = sd_fields f'
      /\ match x with
         | AddMaxRows k => rows_changed (Z.to_nat k) (frame_rows f) (frame_rows f')
         | AddMaxRowsInMaxGroups g k m => groups_changed g (Z.to_nat k) (Z.to_nat m) (frame_rows f) (frame_rows f')
         | AddRowsWithID i s =>
             let others := filter (fun r => everyone_but (who s) (getv i r)) in
             others (frame_rows f) = others (frame_rows f')
             /\ if gone s then others (frame_rows f') = frame_rows f' else others (frame_rows f) = frame_rows f
         end
  | _, _ => c = c'
  end.
(** Two sessions over neighbouring datasets, and what is tracked about them.  An infinite
    budget promises nothing. *)
Record adjacent (E : env) (b : budget) (l l' : list bcall) (tr : tracked) (st st' : state) : Prop := {
  ad_calls : ~ In Build l /\ ~ In Build l' /\ exists gone who, Forall2 (changed_call gone who) l l';
  ad_frames : forall n f c, In (n, (f, c)) (privates l) \/ In (n, (f, c)) (privates l') -> frame_conforms f;
  ad_publics : forall n f, In (n, f) (publics l) \/ In (n, f) (publics l') -> frame_conforms f;
  ad_budget : In (WithBudget b) l /\ valid b /\ ~ infinite b;
  ad_built : exists o o', build_by E l = Ok o /\ build_by E l' = Ok o' /\ st = o_state o /\ st' = o_state o' /\ tr = start_tracked (is_rho b) (o_din o)
}.
