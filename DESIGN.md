# Formal model of tumult-analytics: design and trusted base

## Layout

* `rocq/theories/Prelude.v` – error monad (Python exceptions as values), ordered dictionaries, list facts.
* One *model* file per part of the code, one *spec* section stating the property in terms that
  do not use the model's helpers, one *proof* file. Model files contain only definitions, each
  citing file and lines in `/repo`. Property theorems are collected in `Props_*.v` files, each followed by
  `Print Assumptions`, with the specification vocabulary they need.
* `Examples` beside every theorem: a concrete case that meets the hypotheses.
* A property that the code violates is stated as `…_refuted : exists …, …` with a concrete witness,
  together with the strongest guarded version that does hold.

## Trusted base

* Coq 8.16.1 kernel (including `vm_compute`), `coqchk`.
* The reading of Python semantics encoded in the models (dict order, truthiness, short circuit,
  exceptions). Python code is transcribed by hand; there is no extraction link.
* `tmlt.core`, PySpark, pandas and sympy are not in the repository. Where the code calls them, the
  model uses the documented behaviour of the call as a definition (relational operations on
  lists of rows, truncation, exact arithmetic, accountant state machine) or as a section variable (float rounding,
  hash functions, user functions). The list is kept per file in "What is modelled" below.
* Axioms: see the table "Print Assumptions" at the end; the aim is "Closed under the global context"
  everywhere except in `Props_PrivacyReal.v` and `Props_FullPrivacyReal.v`, which use the real numbers of the standard library.

## Plan per property

| id | what is modelled | how it is proved |
|----|------------------|------------------|
| C01–C04 | `privacy_budget.py`: all three classes with exact rationals + infinities, Python int/float distinction, floats through an arbitrary monotone rounding function | case analysis + linear rational arithmetic |
| C05–C07 | `binning_spec.py`: constructor, `bins`, `__call__` with bisect loops over an arbitrary total order; all kinds of edges and how names write them (BinEdges.v, BinWritten.v) | invariant of bisect, induction over edge list; names can be read back, so different bins have different names (Props_BinWritten.v) |
| C08–C13 | `keyset/_ops/*`, `keyset/_keyset.py`: operation tree, constructors with checks, denotation as sets of rows, every rewrite rule as in `_rules.py`, `decompose`, `is_equivalent` | structural induction on trees; each rule proved denotation-preserving; refutations with witnesses for the rules which are not |
| C14 | `constraints/_truncation.py`, `_simplify.py` | induction over constraint lists |
| C15 | `_constraint_propagation.py`, tables as lists of rows, relational semantics of each transformation | counting lemmas on lists |
| C16–C18 | truncation transformations (documented core behaviour: any deterministic choice that keeps at most k), `_get_truncatable_constraints`, `_constraint_stability`, `_truncate_table` | counting; L1 and L2 bounds |
| C19, C23, C24 | `_query_expr.py` AST, `schema()` of every node incl. validation, evaluation of every node on tables | induction on query expressions |
| C20–C22 | `_rewrite_rules.py` | induction on expressions, uses C19 semantics |
| C25–C29 | `session.py` as a transition system over a tree of accountants, tables, views and public sources | inductive invariants over all histories |
| C30, C31 | `_split_auto_partition_budget`, `_validate_approxDP_and_adjust_budget`, `_compiler.py` | arithmetic case analysis |
| C32, C33 | `_neighboring_relation.py`, `_neighboring_relation_visitor.py`, `protected_change.py` | induction over nested conjunctions; counting |
| C34 | `_base_builder.py`, `Session.Builder` | invariants over call sequences |
| C35 | `config.py` | induction over well-nested programs with exceptions |
| C36, C41 | `_schema.py`, `_coerce_spark_schema.py` | induction over columns; refutation for the hash law |
| C37, C42 | `query_builder.py` | induction over expressions / call sequences |
| C38 | `_generate_constrained_count_distinct` | counting lemmas |
| C39 | `suppress`, `visit_suppress_aggregates` | filter lemmas |
| C40 | `_table_reference.py`, `_transformation_utils.py` | induction over nested collections |
| C43 | `visit_join_public` | refutation + guarded theorem |
| C44 | acceptance conditions of `schema()` and of the constructors in `_query_expr.py` | both directions, per operation |
| C45 | `session.py::partition_and_create`, `_create_partition_constraint` | counting; invariants over histories |
| C46 | `_truncate_table` and constraint propagation together | composition of C15, C16 with the compiled plan |
| C47 | everything between tables and compiled measurements | induction on queries, tables related by permutation |
| C48 | `query_builder.py` methods that transform tables, down to the rows | call-sequence invariant + one lemma per operation |
| C49 | `session.py` state of every session against `get_schema` and the catalog | invariant over all histories from the builder; with C19 for queries |
| C50 | `Session._table_constraints` against the rows | the same invariant, with C15; refutation |
| C51 | builder, sessions, compiler and measurements on data with the rows removed | removing the rows commutes with every function of the model; induction over calls |
| C52 | two runs of builder and sessions whose private rows differ for some IDs | every transformation commutes with keeping the other IDs (visit_restrict); a relation between the two trees of sessions, preserved by every call |
| C53 | two runs as for C52 for one ID, and one aggregation compiled in both | the aggregation's child commutes with removing the person, so its tables are 1 or 2 IDs apart; C17's stability of the chosen truncation; distances per key add up (Distance.v) |
| C54 | an analyst as a function from all replies so far to the next call; distributions as any structure with a closeness that composes (PrivacySpec.v), instantiated by rationals (PrivacyInstance.v) and by reals with pure, approximate and zero-concentrated DP (PrivacyReal.v); the distances that core tracks for tables, views and parts (FullPrivacySpec.v, FullSessionSpec.v) | two runs stay alike up to rows (C51); for every session a share of its tracked distances bounds how far its tables are apart: rows through views (FullStability.v), IDs through views (FullSpaces.v), shares of parts adding up to that of the partitioned session (FullParts.v). The sum of share times budget left over all sessions never grows, and each answer costs its share (FullPlay.v); at the start it is the budget (FullStart.v). Zero-concentrated DP by the dual form of the Renyi divergence, which composes |
| C55 | two data dictionaries alike up to rows; `spread` (StabilitySpec.v): how far changes spread through a query | row_distance through filters, maps, flat maps, truncations and joins (RowStability.v); induction over `spread`; sessions and measurements as for C53 |
| C56 | `_noise_info.py`: `_get_info` and `_noise_from_info` on trees of objects (NoiseInfo.v) | induction over objects; positions as paths (Props_NoiseInfo.v) |
| C57 | `describe`, `_describe_self`, `_describe_query_obj`, `_describe_schema` (Describe.v): the text by its parts | reading a printed table back; invariants of C49; views as for C29 (Props_Describe.v) |
| C58 | `validate_collection`, `ParameterMixin` (Utils.v) | list reasoning; induction over calls (Props_Utils.v) |
| C60 | `BinningSpec.__eq__`, `__hash__` (BinEdges.v) | equal edges have the same order relations, so the same bin contains a value (Props_BinEdges.v) |
| C61 | KeySets as objects with remembered results and a shared list of columns (KeySetObject.v) | simulation by a store of immutable KeySets; invariant relating remembered frames and Spark's storage (KeySetObjectProofs.v, KeySetStorage.v) |
| C62 | `_validate_groupby`, `_schema_for_groupby`, the measurement visitor's plans and their answers (Query.v, Measure.v) | schemas by cases; every compiled plan has the keys, names and mechanism of its query, so its rows conform (AnswerSchema.v, Props_AnswerSchema.v) |
| C63 | `schema()` of each KeySet operation and of KeySets (KeySet.v) | a column's attributes, read off the tree, are kept by every rewrite rule and give the schema; induction on the program (KeySetSchema.v, KeySetSchemaApi.v, Props_KeySetSchema.v) |
| C64 | the constructors' checks (KeySet.v) | induction on the program; types of columns from C63 (KeySetRefused.v, Props_KeySetRefused.v) |
| C65 | KeySets held by queries (erase_keys, QueryEq.v), plans of measurements (Measure.v) | C08 and C63 for the keys, the plan of each compiled aggregation (AnswerKeys.v, Props_AnswerKeys.v) |
| C66 | plans of measurements and their budgets (Measure.v), C30, C38, C46 | the plan of each compiled aggregation gets an infinite loss; its rows are those of the transformed table (Exact.v, Props_Exact.v; for every session state, Props_ExactSession.v). What tmlt.core does with an infinite loss is the record exact_core |
| C67 | C53, C55 (tables read by a measurement), `_get_query_bounds` (Sums.v) | a total of numbers bounded by B changes by at most B times the row distance, group by group (Sums.v, Props_Sums.v) |
| C68 | Session.v, Accountant.v, Budget.v | a simulation between two trees of sessions that differ in what is left, kept by every call (MoreBudget.v) |
| C69 | Query.v, Rewrite.v, Transform.v, Measure.v, Session.v | induction on the query for every walk over it (Footprint.v); what each call leaves alone, by induction over the calls |
| C70 | KeySet.v | each law by the documented meaning of both sides (C08), any chain of laws by induction; equality by C13 |
| C71 | Transform.v, Session.v | every operation of the visitor is total under the conditions, by induction on the query; the catalog conditions hold in every reachable session |
| C72 | QueryBuilder.v, Query.v | each check compared with the declarative list of faults; invariant over call sequences for sources and counts |
| C73 | Measure.v, Rewrite.v, Session.v | each visit method is total under its conditions: budgets, rewriting, table (C71), choice of the truncation, selection of columns; combined for the rewritten query, then for Session.evaluate |
| C74 | Query.v, Transform.v, Constraints.v, Rewrite.v, Measure.v | the equivalence generated by the laws is a congruence: one operation on equal bags gives equal bags (QueryLike.v); each law by computing both schemas, domains, rows and simplified constraints; then rewriting and measuring side by side |
| C75 | Session.v, Budget.v | invariant over lists of evaluations: same tables, same kind of budget, same verdict on activation, what is left is exact; while the rest suffices the charge is the request (MoreBudget.v), so each outcome is that of the first state (AnyOrder.v) |
| C76 | A relation between session trees (same named tables, spaces, constraints, budgets, states) that every call preserves with equal results (simulation, induction over calls); builder permutations, caching and create/delete are shown to land in it | Shown.v, Props_Shown.v |
| C77 | compiling side by side over the catalogs with and without the view: schemas correspond (C29), transformations are equal, rewriting and measuring commute with the replacement; transformations without grouping column do not depend on the kind of noise | ViewAnswers.v, Props_ViewAnswers.v |
| C78 | the part's only table (C45) is the table that the filter gives, and tables without IDs carry no constraints (SessionBare.v); then answers agree by C69, and with the view replaced by C77 | Props_PartAnswers.v |
| C79 | an evaluation leaves other sessions' data alone and retires no session that may follow (`live_states`); so each session is `like` it was (C75) when its turn comes; induction over the turns | Props_InTurn.v |
| C80 | the calls are followed branch by branch; in reachable states every table can be found, renamed and, unless it is alone in its collection, deleted (`delete_cases`), and every computed query can be stored (`store_exists`) | Props_Housekeeping.v |
| C81 | every branch that raises returns the state it got or the one after activation (`fail_touches`); activation changes only waiting sessions; induction over the history; without partitions the only session is active or retired | Props_Failures.v |
| C82 | renaming commutes with schema, visit, rewriting and measuring, by induction over the query (`Renaming.v`); a relation between session trees that is kept by every call and implies equal results (`RenamedSession.v`, after `Shown.v`); sessions just built are related; induction over the history | Renaming.v, RenamedSession.v, Props_Renaming.v |
| C83 | the rows of a coarse key are a permutation of the rows of the fine keys below it (`rows_roll_up`); C66 says which rows every answer is computed from; parts hold the rows with their value (C45) | Props_RollUp.v, Props_RollUpParts.v |
| C84 | exact counts (C66) of what enforce() left; what each ID keeps (C16) summed over the IDs; truncating twice is truncating to the smaller bound (C74) | Props_TruncatedCounts.v |
| C85 | By induction on the chain of steps, each of which spreads the rows of a key within its factors (spread); C66 for the answers before and after. | Props_FollowedCounts.v |
| C59 | `evaluate`, `partition_and_create` (Session.v), `_format_insufficient_budget_msg` (Message.v) | the charge is the request or all that is left (C02, C26); rounding to three decimals (Props_Message.v) |

## Not expressible / out of scope

* The distribution of the noise itself and the DP guarantee of tmlt.core's measurements (core is
  not part of this repository). C17/C33 prove the sensitivity bounds that core is given.
* Spark's execution (laziness, partitioning, caching) and performance.

## What is modelled

Every definition in a model file cites the lines it models and its own simplifications. Summary:

| source (`src/tmlt/analytics/`) | model | not modelled |
|---|---|---|
| `privacy_budget.py` | Budget.v | irrational ExactNumbers, signed zeros, messages |
| `binning_spec.py` | Binning.v, BinEdges.v (ints, floats, strings, dates, datetimes; `_edges_as_str`; equality) | numpy arrays as a separate type; `__repr__`; time zones; characters beyond Latin-1; -0.0; the general theorems hold for edges in any type with the laws of `pyorder` |
| `keyset/_ops/*`, `keyset/_keyset.py` | KeySet.v; objects, memoization and caching in KeySetObject.v | Spark plans; a frame is its rows; `__str__` |
| `constraints/*` | Constraints.v | – |
| `_schema.py`, `_coerce_spark_schema.py` | Schema.v | – |
| `_query_expr.py`, `_catalog.py`, `truncation_strategy.py` | Query.v; equality in QueryEq.v | typeguard's checks |
| `_query_expr_compiler/_base_transformation_visitor.py`, `_constraint_propagation.py`, `_compiler.py` (build_transformation) | Transform.v | conversions of Python/Spark values, which keep cells |
| `_query_expr_compiler/_rewrite_rules.py` | Rewrite.v | – |
| `_query_expr_compiler/_base_measurement_visitor.py`, `_measurement_visitor.py`, `_compiler.py` (call) | Measure.v, Sums.v (`_get_query_bounds`) | the inside of tmlt.core measurements; a measurement is a record of what is asked of core |
| `_table_identifier.py`, `_table_reference.py`, `_transformation_utils.py` | Tables.v | `TemporaryTable` identity is a number |
| `session.py` | Accountant.v, Session.v, Builder.v, Describe.v, Message.v | the layout of what `describe()` prints, error messages other than those about budgets, Spark configuration |
| `_noise_info.py` | NoiseInfo.v | `NoiseInfo` is a list; the quantile functions themselves are tmlt.core's (`core` in `inverse_cdf`) |
| `_base_builder.py` | Builder.v, Utils.v (`ParameterMixin`) | – |
| `_utils.py` | Utils.v (`validate_collection`) | `type_name`, `dataframe_is_empty`, messages |
| `protected_change.py`, `_neighboring_relation.py`, `_neighboring_relation_visitor.py` | Neighboring.v | typeguard's checks |
| `config.py` | Config.v | threads |
| `query_builder.py` | QueryBuilder.v | typeguard's checks, `str.upper` beyond ASCII |
| `utils.py`, `_type_checking.py`, `__init__.py` | – | installation checks, Spark warnings, re-exports |

### Assumed about libraries that are not in the repository

Each is a definition, a record field or a hypothesis in the named file.

* Floats: rounding is any function with the laws of the record `rounding` (Budget.v). Examples use `exact_rounding`.
* Accountants (Accountant.v): states, splitting, in-order activation and retirement as tmlt.core documents. Infinite
  budgets are never reduced and absorb anything. `queue_transformation` updates the input domain. The privacy function of a
  `SequentialComposition` is its budget, and neither composing nor launching one raises.
* Truncation (Constraints.v, Transform.v): the kept rows or keys are the first ones in a fixed total order.
* Joins: nulls are equal to nulls; joining on no columns is refused; `PublicJoin` on `AddRemoveKeys` tables defaults to an
  inner join; public joins and selections refuse to rename or drop the column of the metric; joins on a key need the same
  ID column on both sides, and it must be joined on. Output domains are those of core's `domain_after_join`.
* `FlatMapByKey` refuses the key in the output. `GroupingFlatMap` takes tables with metric `SymmetricDifference` only.
  Functions given by the user return what they declare (`promises`).
* Dropping or replacing infinities in no columns is accepted and does nothing (the visitor does not guard against it).
* `PartitionByKeys` refuses empty or repeated keys and requires the grouping column of a grouped table among the keys.
* Distances (NeighboringSpec.v): adding or removing an ID counts 1, changing one counts 2.
* Spark resolves filter expressions by column name; widening casts keep cells; NaN is the largest float in comparisons;
  converting a Spark schema allows NaN and infinities in floats.
* Measurements (Measure.v): whether core's constructors accept a request, which keys partition selection returns, and the
  noise are oracles (`K`). A key set without columns is one group with all rows. Distinct counts count null as a value.
  C47 needs `core_sees_bags`: core's answers do not depend on the order of rows.
* C51 needs `blind` and `blind_core` (BlindSpec.v, BlindMeasure.v): core's constructors see domains and metrics, not rows.
* C52 needs `blind` and `honest ... true` (user maps meet their declared outputs, SessionSound.v) on both runs.
* C53 needs what C52 needs, the same promises for the aggregated query (`measured` in Props_Sensitivity.v), and for counts `blind_core`.
* C54 needs what C53 needs at every call of the analyst (`honest_call` in FullSessionSpec.v), what users promise about grouping columns under
  zCDP (`groups_kept` in FullPrivacySpec.v), and that core's noise is proportionate: for two measurements that differ in their rows only, where
  the tables read are apart by a share `f` of the distance the measurement was made for, the answers are within the share `f` of the reported
  privacy loss (`proportionate`; distances and rho are squared alike, delta of partition selection is convex in the distance). How core tracks
  distances is modelled by `reach`, `track` and `noise_distance`; the root in private joins under zCDP is rounded up. The older
  `C54_*_partial` theorems need `calibrated` instead, for changes of one person's rows.
* C66 needs `exact_core` (Exact.v): with an infinite epsilon or rho core adds no noise, aggregations other than counts are a function of the
  values in the group and not of their order, and partition selection returns every key that occurs once.
* C67 needs `directed` (Sums.v): `ExactNumber.from_float` rounds in the direction it is asked to. Sums clamp to these bounds.
* C68 and C75 need `rounds_in_order` (MoreBudget.v): `ExactNumber.to_float(round_up=False)` is monotone.
* C55 needs `blind` (to compare two sessions) and for counts `blind_core`. How core computes its own bounds on sensitivity is not modelled.
* C56: objects are finite trees, dictionary keys are strings; `deepcopy` is the identity.
* pandas (QueryEq.v): comparing two non-empty frames compares bags of rows. pyspark `Column` objects are unhashable and
  their `==` is not a bool. Functions compare by `__code__`.
* `bin_column` on a missing column raises when the row is read; the model reads null there.

## Print Assumptions

Every theorem listed in `MANIFEST.json` is followed by `Print Assumptions` in its `Props_*.v` file. All but two print
"Closed under the global context": no axioms, neither ours nor the standard library's. The two are
`C54_differential_privacy_partial` (Props_PrivacyReal.v) and `C54_differential_privacy` (Props_FullPrivacyReal.v), which print the axioms of the standard library's real numbers:

* `ClassicalDedekindReals.sig_not_dec`
* `ClassicalDedekindReals.sig_forall_dec`
* `FunctionalExtensionality.functional_extensionality_dep`
* `Classical_Prop.classic`

The names
`Coq.ssr.ssrunder.Under_rel.*`, `Coq.Reals.Rdefinitions.RbaseSymbolsImpl.*` and `Coq.Reals.Rdefinitions.RinvImpl.*` that a
whole-library listing shows are parameters of module signatures in the standard library that are loaded with it; the real
numbers themselves are defined there from the axioms above.

## Results

`MANIFEST.json` has the status and the theorems of each property. Every property marked *partial* (C09, C10, C11, C13,
C15, C28, C31, C36, C37, C41, C43, C44, C50, C57, C58, C59, C60, C61, C62, C64, C77, C80) has a clause that is false of the code, with a witness in a `_refuted` theorem.
What is proved beside it is a version with explicit guards. The refutations show that some guard is needed; they do not show
that each guard is as weak as possible. In particular the conditions of C10 and of `C12_decompose_succeeds_partial` (a common column
in chains of joins, filters given as SQL strings) and those of C37 are sufficient and have not been shown necessary.

Findings about the code that the refuted theorems record:

* KeySets: projecting a product with an empty factor shows keys (C08, C09); optimising can raise (C10); columnless frames
  and emptiness (C11); equal KeySets with different hashes (C13).
* Constraints: default replacements and private joins can leave a constraint attached that does not hold (C15), and two view definitions suffice to bring a session there (C50).
* Sessions: a name can be both private and public, after which it cannot be queried (C28); a delta that the query does not
  use is charged (C31); automatic keys with tiny budgets or per-group constraints on other columns fail when run (C30).
* Schemas: equality ignores column order and the hash does not (C36); NaN and infinity flags are lost through Spark (C41).
* Queries: equality of queries with functions, frames or 1 == 1.0 replacements (C37); left public joins on tables with IDs
  are inner joins (C43); two columns renamed to one name (C44); joins split a column name given as a string, and
  `histogram` changes its own builder (C42); infinite float IDs are merged (C24).
* `describe(name)` raises for public tables (C57); `validate_collection` raises TypeError for elements that cannot be sorted (C58).
* A PureDPBudget that exceeds what is left of a session with an ApproxDPBudget raises AnalyticsInternalError instead of RuntimeError; shortfalls below 0.0005 are reported as a difference of 0 (C59).
* Equal BinningSpecs may have different column types, since 1 == 1.0 (C60).
* The schema check accepts an output column with the name of a key column, and a KeySet with nulls in a column without nulls (C62; tmlt.core may refuse them later).
* A KeySet keeps the caller's list of columns: changing the list later changes `columns()` and makes `schema()` raise (C61).
* In zCDP sessions, aggregations with Laplace noise and get_bounds on tables protected by groups end in AnalyticsInternalError;
  count_distinct of columns with automatic keys ends in AttributeError, and its columns are only checked when it is evaluated (C73).
* In zCDP sessions, a view with a grouping column cannot be aggregated with Laplace noise (AnalyticsInternalError), although its definition can (C77).
* `delete_view` deletes tables the session was built from, not only views; their names are free again (C80).
* `create_view`, `delete_view` and `evaluate` activate their session before they can fail: a failing call in a parent session ends the parts (C81).
* A filter before a truncation is not the same as after it (C74).
* Documentation: the sensitivity formula of private joins in `TruncationStrategy` swaps the two tables (C55).
