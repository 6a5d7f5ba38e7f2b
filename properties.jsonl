{"id": "C01", "title": "Budget arithmetic stays valid", "statement": "Adding, subtracting, multiplying or dividing privacy budgets either raises or yields a budget that the constructor would accept: epsilon/rho is not NaN and is non-negative, and delta lies in [0,1]. Delta is clamped to 1 by + and *.", "quantifier": "all pairs of constructible Pure/Approx/zCDP budgets, all int or float operands, and every monotone float rounding", "why_tests_cant": "The values are unbounded reals and floats; the failing combinations (infinity times zero, rounding below zero, delta sums above one) are measure-zero points tests rarely sample.", "anchors": ["src/tmlt/analytics/privacy_budget.py::PureDPBudget", "src/tmlt/analytics/privacy_budget.py::ApproxDPBudget", "src/tmlt/analytics/privacy_budget.py::RhoZCDPBudget"]}
{"id": "C02", "title": "Budget tolerance only ever lowers a request to what remains", "statement": "When a query asks for slightly more than what is left, the charged amount is either exactly the request or exactly the remaining amount, component by component. It is the remaining amount only if the request exceeds it by no more than one part in 10^9. The charge never exceeds the request.", "quantifier": "all requested and remaining budgets of the same type, finite or infinite, component-wise for (epsilon, delta)", "why_tests_cant": "The claim is about a boundary in a continuum, for two independent components, including the infinite and zero cases.", "anchors": ["src/tmlt/analytics/privacy_budget.py::_requested_budget_is_slightly_higher_than_remaining", "src/tmlt/analytics/privacy_budget.py::_get_adjusted_budget_number", "src/tmlt/analytics/privacy_budget.py::_get_adjusted_budget"]}
{"id": "C03", "title": "Infinite budgets absorb, equality is an equivalence and agrees with hashing", "statement": "Adding anything to an infinite budget or subtracting from one leaves it infinite; == on budgets is reflexive, symmetric and transitive; equal budgets hash equally; all infinite approximate-DP budgets are equal.", "quantifier": "all triples of constructible budgets", "why_tests_cant": "Equivalence-relation and hash laws quantify over all pairs and triples of values.", "anchors": ["src/tmlt/analytics/privacy_budget.py::ApproxDPBudget.__eq__", "src/tmlt/analytics/privacy_budget.py::ApproxDPBudget.__hash__", "src/tmlt/analytics/privacy_budget.py::PureDPBudget.__add__"]}
{"id": "C04", "title": "Subtracting budgets raises exactly when more than the tolerated amount is taken", "statement": "a - b succeeds for finite a if and only if b is at most a, up to the one-in-10^9 tolerance, in every component; the result is then non-negative and at most a.", "quantifier": "all pairs of same-typed budgets and every monotone rounding", "why_tests_cant": "Needs the boundary case for every pair of numbers, including pairs that only differ after rounding.", "anchors": ["src/tmlt/analytics/privacy_budget.py::PureDPBudget.__sub__", "src/tmlt/analytics/privacy_budget.py::ApproxDPBudget.__sub__", "src/tmlt/analytics/privacy_budget.py::RhoZCDPBudget.__sub__"]}
{"id": "C05", "title": "Binning puts every value in exactly the bin that contains it", "statement": "Applying a BinningSpec to a value returns the name of the unique bin whose interval (half-open, with the closed end selected by right and include_both_endpoints) contains the value; None and values outside all bins map to None, NaN maps to the NaN bin. A generated bin name shows the two edges: read back, it gives the ints, dates, datetimes and strings themselves, and floats to the shown precision.", "quantifier": "all strictly increasing edge lists, all endpoint options and all values of the edge type", "why_tests_cant": "Bisect boundary errors depend on the exact position of the value relative to arbitrarily many edges.", "anchors": ["src/tmlt/analytics/binning_spec.py::BinningSpec.__call__"]}
{"id": "C06", "title": "A histogram's bins cover everything binning can output", "statement": "bins(include_null=True) lists exactly the names of the bins, the NaN bin and None, so it contains every value the binning function can return; bins() contains every non-null one. Neither lists a name twice, and distinct names stay in edge order, so a histogram's key set loses no row that falls in a bin. Names that are generated from the edges (ints, floats, strings, dates or datetimes, whatever characters strings contain) differ for different bins, so two values get the same name exactly if one bin contains both.", "quantifier": "all binning specs and all inputs", "why_tests_cant": "Ranges over every spec, including user-supplied duplicate bin names and a NaN bin equal to another bin's name.", "anchors": ["src/tmlt/analytics/binning_spec.py::BinningSpec.bins", "src/tmlt/analytics/binning_spec.py::BinningSpec.__call__", "src/tmlt/analytics/query_builder.py::QueryBuilder.histogram"]}
{"id": "C07", "title": "Binning specs accept exactly well-formed edges and names", "statement": "Constructing a BinningSpec succeeds if and only if there are at least two edges, edges are strictly ascending and of a supported common type, and the number of names is one less than the number of edges. Names can be generated for all such edges, except for floats that agree to 16 decimals. Edges of one kind are compared as numbers, as strings, by day or by time.", "quantifier": "all edge and name lists", "why_tests_cant": "Validation must hold for every list length and position of the offending element.", "anchors": ["src/tmlt/analytics/binning_spec.py::BinningSpec.__init__"]}
{"id": "C08", "title": "KeySet operations denote the relational operations", "statement": "The keys of A*B, A.join(B), A.union(B), A-B, A[cols], A.filter(c), from_dict, from_tuples and from_dataframe are exactly the cross product, natural join, set union, anti-join, projection, selection, product of value lists, listed tuples and rows, with the documented columns in the documented order and no repeated rows, provided every KeySet a projection is taken from has at least one key and columnless KeySets are only multiplied.", "quantifier": "all key sets built by any finite nesting of the operations over any column names and values", "why_tests_cant": "Operation trees nest arbitrarily; tests cover a few shapes only.", "anchors": ["src/tmlt/analytics/keyset/_keyset.py::KeySet", "src/tmlt/analytics/keyset/_ops/_cross_join.py::CrossJoin", "src/tmlt/analytics/keyset/_ops/_subtract.py::Subtract"]}
{"id": "C09", "title": "Optimizing a KeySet never changes its keys", "statement": "The optimization applied to every KeySet before use returns a KeySet with the same columns and exactly the same set of keys.", "quantifier": "all operation trees accepted by the public constructors and all data, including empty key sets", "why_tests_cant": "The rewriting is a pipeline of eleven tree transformations applied recursively to trees of unbounded depth.", "anchors": ["src/tmlt/analytics/keyset/_ops/_rules.py::rewrite"]}
{"id": "C10", "title": "Optimizing a KeySet never fails", "statement": "Every KeySet that the public operations accept can be optimized and materialized without an exception.", "quantifier": "all operation trees accepted by the public constructors", "why_tests_cant": "The failing trees need specific column overlaps among three or more joined key sets.", "anchors": ["src/tmlt/analytics/keyset/_ops/_rules.py::rewrite", "src/tmlt/analytics/keyset/_ops/_rules.py::normalize_joins"]}
{"id": "C11", "title": "KeySet size and emptiness agree with the key table", "statement": "size() is the number of distinct keys in dataframe(), and emptiness checks agree with size()==0.", "quantifier": "all operation trees and data", "why_tests_cant": "size() and is_empty() are computed compositionally without materializing, for arbitrary nesting.", "anchors": ["src/tmlt/analytics/keyset/_ops/_cross_join.py::CrossJoin.size", "src/tmlt/analytics/keyset/_ops/_union.py::Union.is_empty", "src/tmlt/analytics/keyset/_ops/_from_dataframe.py::FromSparkDataFrame.is_empty"]}
{"id": "C12", "title": "Decomposing a KeySet loses no keys", "statement": "Splitting a KeySet into factors and subtracted parts loses nothing: a key is in the KeySet iff it is in every factor and in no subtracted part. The factors cover the KeySet's columns, and two factors share only split columns.", "quantifier": "all operation trees, all split column sets", "why_tests_cant": "Recursive over unbounded trees.", "anchors": ["src/tmlt/analytics/keyset/_keyset.py::KeySet._decompose", "src/tmlt/analytics/keyset/_ops/_subtract.py::Subtract.decompose", "src/tmlt/analytics/keyset/_ops/_join.py::Join.decompose", "src/tmlt/analytics/keyset/_ops/_cross_join.py::CrossJoin.decompose"]}
{"id": "C13", "title": "KeySet equivalence verdicts are right", "statement": "If is_equivalent returns True the key sets have the same columns and keys; if it returns False they differ in columns, column types or keys. == returns True exactly when columns, column types and keys agree, and equal KeySets have equal hashes.", "quantifier": "all pairs of key sets", "why_tests_cant": "Claims over all pairs; a wrong definitive answer appears only for particular rewritten shapes.", "anchors": ["src/tmlt/analytics/keyset/_keyset.py::KeySet.is_equivalent", "src/tmlt/analytics/keyset/_keyset.py::KeySet.__eq__", "src/tmlt/analytics/keyset/_keyset.py::KeySet.__hash__"]}
{"id": "C14", "title": "Simplifying constraints keeps their meaning", "statement": "The simplified constraint list is satisfied by exactly the same tables as the original list, contains at most one bound per kind and column, and simplification is idempotent.", "quantifier": "all finite lists of constraints and all tables", "why_tests_cant": "Lists of any length with any repetition and order.", "anchors": ["src/tmlt/analytics/constraints/_truncation.py::simplify_truncation_constraints", "src/tmlt/analytics/constraints/_simplify.py::simplify_constraints"]}
{"id": "C15", "title": "Constraints attached to a derived table really hold of it", "statement": "After filter, select, rename, map, flat map, drop/replace of special values and joins, every constraint the library records for the derived table is satisfied by its data, provided the recorded constraints held of the inputs.", "quantifier": "all tables satisfying the input constraints, all constraint lists and transformation parameters", "why_tests_cant": "Soundness of propagation is a statement about all tables; a wrong rule shows only on data with a particular multiplicity pattern.", "anchors": ["src/tmlt/analytics/_query_expr_compiler/_constraint_propagation.py::propagate_map", "src/tmlt/analytics/_query_expr_compiler/_constraint_propagation.py::propagate_flat_map", "src/tmlt/analytics/_query_expr_compiler/_constraint_propagation.py::propagate_replace", "src/tmlt/analytics/_query_expr_compiler/_constraint_propagation.py::propagate_join_private", "src/tmlt/analytics/_query_expr_compiler/_constraint_propagation.py::propagate_join_public"]}
{"id": "C16", "title": "Enforcing a constraint makes it true and only drops rows", "statement": "The enforced table satisfies the constraint, is a sub-collection of the input rows, and is unchanged if it already satisfied the constraint.", "quantifier": "all tables and all bounds >= 1", "why_tests_cant": "Universally quantified over tables.", "anchors": ["src/tmlt/analytics/constraints/_truncation.py::MaxRowsPerID._enforce", "src/tmlt/analytics/constraints/_truncation.py::MaxGroupsPerID._enforce", "src/tmlt/analytics/constraints/_truncation.py::MaxRowsPerGroupPerID._enforce"]}
{"id": "C17", "title": "One privacy ID affects at most the computed stability", "statement": "After the truncation chosen for an aggregation, two tables that differ only in the rows of one privacy ID differ in at most the stability the library computed from the constraints (L1 for pure/approximate DP, L2 per group for zCDP). The bound is exact: for every number of privacy IDs some table, set against the empty one, is exactly that far apart.", "quantifier": "all pairs of neighbouring tables, all constraint lists, all output measures", "why_tests_cant": "This is the sensitivity bound privacy depends on; it is a statement about all pairs of neighbouring databases.", "anchors": ["src/tmlt/analytics/_query_expr_compiler/_base_measurement_visitor.py::_constraint_stability", "src/tmlt/analytics/_query_expr_compiler/_base_measurement_visitor.py::_get_truncatable_constraints", "src/tmlt/analytics/_query_expr_compiler/_base_measurement_visitor.py::BaseMeasurementVisitor._truncate_table"]}
{"id": "C18", "title": "The truncation chosen is the cheapest one available and missing constraints are refused", "statement": "For a table with a privacy ID, an aggregation is refused unless the known constraints bound the rows per ID; otherwise the chosen truncation has the smallest stability among all usable ones.", "quantifier": "all constraint lists", "why_tests_cant": "Lists of any length and order.", "anchors": ["src/tmlt/analytics/_query_expr_compiler/_base_measurement_visitor.py::BaseMeasurementVisitor._truncate_table"]}
{"id": "C19", "title": "A query's schema describes its data", "statement": "If a private table conforms to its schema, then the table obtained by applying a query's transformations conforms to the schema the library reports for the query: same columns, types, and no null/NaN/infinite values where the schema disallows them.", "quantifier": "all transformation pipelines of any length, all tables conforming to the source schemas", "why_tests_cant": "Type soundness over an inductively defined query language.", "anchors": ["src/tmlt/analytics/_query_expr.py::QueryExpr.schema", "src/tmlt/analytics/_query_expr.py::Rename.schema", "src/tmlt/analytics/_query_expr.py::Map.schema", "src/tmlt/analytics/_query_expr.py::JoinPublic.schema", "src/tmlt/analytics/_query_expr.py::ReplaceNullAndNan.schema"]}
{"id": "C20", "title": "Aggregations never see null, NaN or infinite measure values", "statement": "Before an aggregation of a measure column, the library inserts steps after which the column has no null, NaN or infinity; no other column's data changes, and infinite values are clamped to the bounds (dropped for get_bounds).", "quantifier": "all aggregation queries and all tables", "why_tests_cant": "Depends on combinations of schema flags and data at any point of a pipeline.", "anchors": ["src/tmlt/analytics/_query_expr_compiler/_rewrite_rules.py::add_special_value_handling"]}
{"id": "C21", "title": "Noise mechanism selection matches the privacy definition and data type", "statement": "After compilation every aggregation has a concrete mechanism: integer-valued aggregations get integer noise, Gaussian noise is only ever used under zCDP, and asking for Gaussian noise under pure or approximate DP is refused.", "quantifier": "all queries, output measures, column types and requested mechanisms", "why_tests_cant": "Combination table applied at every aggregation of a recursively traversed tree.", "anchors": ["src/tmlt/analytics/_query_expr_compiler/_rewrite_rules.py::select_noise_mechanism"]}
{"id": "C22", "title": "Rewriting a query touches only what it must", "statement": "Query rewriting preserves the query's output schema, source table, grouping keys, bounds and output column; on queries that need no rewriting it is the identity, and rewriting twice equals rewriting once.", "quantifier": "all queries", "why_tests_cant": "Tree traversal over unbounded trees.", "anchors": ["src/tmlt/analytics/_query_expr_compiler/_rewrite_rules.py::rewrite", "src/tmlt/analytics/_query_expr_compiler/_rewrite_rules.py::depth_first"]}
{"id": "C23", "title": "Join schemas have one copy of each join column and no lost columns", "statement": "The schema of a join has each join column once, every other column exactly once, with _left/_right suffixes exactly on overlapping non-join columns; joins whose output names would collide are refused. A join column of an inner join is described as admitting nulls, NaNs or infinities only if it does on both sides, one of a left join as on the left; other columns keep their descriptions, except that those of the right of a left join admit nulls. The grouping column is that of the tables joined, and tables with two different grouping columns are not joined. Other joins on common columns of equal types are accepted.", "quantifier": "all pairs of schemas and join column choices", "why_tests_cant": "Name clashes arise only for particular combinations of column names.", "anchors": ["src/tmlt/analytics/_query_expr.py::_validate_join", "src/tmlt/analytics/_query_expr.py::_schema_for_join"]}
{"id": "C24", "title": "The privacy ID column is never lost or overwritten", "statement": "If a source has a privacy ID column then every transformation either is refused or keeps exactly one ID column with the same ID space and, up to renaming, the same values.", "quantifier": "all transformation pipelines", "why_tests_cant": "Statement about all pipelines of any length.", "anchors": ["src/tmlt/analytics/_query_expr.py::Rename.schema", "src/tmlt/analytics/_query_expr.py::Select.schema", "src/tmlt/analytics/_query_expr.py::Map.schema", "src/tmlt/analytics/_query_expr.py::FlatMap.schema", "src/tmlt/analytics/_query_expr.py::FlatMapByID.schema", "src/tmlt/analytics/_query_expr.py::JoinPrivate.schema"]}
{"id": "C25", "title": "Spending never exceeds the session's budget", "statement": "For any sequence of evaluations, partitions and stops on a session and its descendants, the total charged by composition never exceeds the budget the session was created with, and the reported remaining budget equals the initial budget minus the charges.", "quantifier": "all interleavings of operations over a session and any tree of child sessions, all queries and budgets", "why_tests_cant": "Histories are unbounded and involve a dynamically growing tree of sessions.", "anchors": ["src/tmlt/analytics/session.py::Session.evaluate", "src/tmlt/analytics/session.py::Session.partition_and_create", "src/tmlt/analytics/session.py::Session.remaining_privacy_budget"]}
{"id": "C26", "title": "A failed operation costs nothing", "statement": "If evaluate, partition_and_create, create_view, delete_view or add_public_dataframe raises before the measurement ran, the remaining budget, the tables and the views are unchanged.", "quantifier": "all session states, all failing calls", "why_tests_cant": "Every error path in every reachable state.", "anchors": ["src/tmlt/analytics/session.py::Session.evaluate", "src/tmlt/analytics/session.py::Session._process_requested_budget", "src/tmlt/analytics/session.py::Session.create_view"]}
{"id": "C27", "title": "Only one session of a partition is usable at a time, in order", "statement": "Creating a partition suspends the parent; using a later sibling or the parent permanently retires the earlier ones; retired sessions never answer queries again.", "quantifier": "all interleavings of operations on a tree of sessions", "why_tests_cant": "Schedules over an unbounded tree.", "anchors": ["src/tmlt/analytics/session.py::Session._activate_accountant", "src/tmlt/analytics/session.py::Session.stop", "src/tmlt/analytics/session.py::Session.partition_and_create"]}
{"id": "C28", "title": "Table names in a session are unambiguous", "statement": "At any time each name refers to at most one private source, view or public source, and adding a clashing name is refused.", "quantifier": "all histories of create_view, delete_view, add_public_dataframe, partition_and_create", "why_tests_cant": "Requires an invariant over all histories, including sessions that share data.", "anchors": ["src/tmlt/analytics/session.py::Session.create_view", "src/tmlt/analytics/session.py::Session.add_public_dataframe", "src/tmlt/analytics/session.py::Session.partition_and_create", "src/tmlt/analytics/_catalog.py::Catalog"]}
{"id": "C29", "title": "Views behave like the query that defined them", "statement": "Querying a view gives the same table, schema and constraints as querying the defining transformations directly; creating or deleting a view leaves all other tables unchanged.", "quantifier": "all view-definition histories and queries", "why_tests_cant": "Views are built on views to any depth.", "anchors": ["src/tmlt/analytics/session.py::Session.create_view", "src/tmlt/analytics/session.py::Session.delete_view", "src/tmlt/analytics/_transformation_utils.py::rename_table", "src/tmlt/analytics/_transformation_utils.py::delete_table"]}
{"id": "C30", "title": "Automatic partition selection splits the budget without overspending", "statement": "When grouping keys are selected automatically, the budget for key selection and the budget for the aggregate add up to the query's budget; the whole delta goes to key selection.", "quantifier": "all approximate-DP budgets", "why_tests_cant": "Real-valued budgets including infinite and zero components.", "anchors": ["src/tmlt/analytics/_query_expr_compiler/_base_measurement_visitor.py::_split_auto_partition_budget"]}
{"id": "C31", "title": "Compiled queries are charged no more than requested", "statement": "The adjusted budget of a compiled query is component-wise at most the requested budget and is the amount charged; approximate-DP queries that do not need delta are charged delta 0.", "quantifier": "all queries and budgets", "why_tests_cant": "Ranges over all budgets and query shapes.", "anchors": ["src/tmlt/analytics/_query_expr_compiler/_base_measurement_visitor.py::BaseMeasurementVisitor._validate_approxDP_and_adjust_budget", "src/tmlt/analytics/_query_expr_compiler/_compiler.py::QueryExprCompiler.__call__"]}
{"id": "C32", "title": "Every private table is protected by exactly one protected change", "statement": "A session can only be built if the protected changes together cover each private table exactly once and nothing else; nested conjunctions flatten without losing a table. A relation about IDs needs a named ID space, at least one table and at least one ID.", "quantifier": "all nested conjunctions and table sets", "why_tests_cant": "Nesting is unbounded.", "anchors": ["src/tmlt/analytics/_neighboring_relation.py::Conjunction"]}
{"id": "C33", "title": "Neighbouring distances match the protected change", "statement": "The distance used for noise calibration bounds the actual change between neighbouring datasets: max_rows rows, max_rows_per_group times number of groups (or its square root for zCDP), or number of IDs.", "quantifier": "all protected changes, datasets, and privacy definitions", "why_tests_cant": "Universal over neighbouring datasets.", "anchors": ["src/tmlt/analytics/_neighboring_relation_visitor.py::NeighboringRelationCoreVisitor"]}
{"id": "C34", "title": "Session builders accept each name, budget and ID space once", "statement": "For any order of builder calls, a session is built only if a budget was set exactly once, all table names are distinct valid identifiers across private and public tables, and every ID space used is declared. The session reports, for each private table, the columns of the given frame in order with their documented types; IDs may be null if they may be in any table of the ID space.", "quantifier": "all sequences of builder calls", "why_tests_cant": "All call orders and lengths.", "anchors": ["src/tmlt/analytics/_base_builder.py::BaseBuilder", "src/tmlt/analytics/_base_builder.py::DataFrameMixin", "src/tmlt/analytics/_base_builder.py::PrivacyBudgetMixin"]}
{"id": "C35", "title": "Feature-flag contexts always restore the previous state", "statement": "Entering and leaving enabled()/disabled() contexts in any nesting, including by exceptions, restores the flag exactly.", "quantifier": "all well-nested programs of flag operations", "why_tests_cant": "Nesting depth and exception points are unbounded.", "anchors": ["src/tmlt/analytics/config.py::FeatureFlag"]}
{"id": "C36", "title": "Equal schemas and frozen mappings hash equally", "statement": "Two schemas or frozen mappings that compare equal have the same hash, and frozen mappings behave as immutable ordered maps. The five names of column types, and no others, may be used for types.", "quantifier": "all pairs of schemas / mappings", "why_tests_cant": "A law over all pairs.", "anchors": ["src/tmlt/analytics/_schema.py::Schema.__eq__", "src/tmlt/analytics/_schema.py::Schema.__hash__", "src/tmlt/analytics/_schema.py::FrozenDict"]}
{"id": "C37", "title": "Query equivalence identifies only queries with the same meaning", "statement": "If two queries are reported equivalent, they have the same structure up to equivalent key sets; equality implies equivalence.", "quantifier": "all pairs of queries", "why_tests_cant": "Law over all pairs of trees.", "anchors": ["src/tmlt/analytics/query_builder.py::_query_expr_recursive_equivalence", "src/tmlt/analytics/query_builder.py::Query"]}
{"id": "C38", "title": "Counting distinct IDs by counting rows is exact", "statement": "The optimization that replaces a count of distinct privacy IDs by a row count after truncating to one row per ID (per group) gives the same exact answer.", "quantifier": "all tables and grouping columns", "why_tests_cant": "Equality of two aggregations over all tables.", "anchors": ["src/tmlt/analytics/_query_expr_compiler/_base_measurement_visitor.py::_generate_constrained_count_distinct"]}
{"id": "C39", "title": "Suppression removes exactly the small groups", "statement": "suppress(t) keeps exactly the output rows whose aggregate is at least t, unchanged.", "quantifier": "all result tables and thresholds", "why_tests_cant": "All inputs including equality at the threshold.", "anchors": ["src/tmlt/analytics/query_builder.py::_PostProcessSuppressMixin.suppress", "src/tmlt/analytics/_query_expr_compiler/_base_measurement_visitor.py::BaseMeasurementVisitor.visit_suppress_aggregates"]}
{"id": "C40", "title": "Table lookup in nested collections finds the right table", "statement": "Looking up a table by name in a session's nested data finds the unique table with that name, its schema and its metric, and reports absence otherwise.", "quantifier": "all nested table collections", "why_tests_cant": "Nested to any depth.", "anchors": ["src/tmlt/analytics/_table_reference.py::find_reference", "src/tmlt/analytics/_table_reference.py::lookup_domain", "src/tmlt/analytics/_table_reference.py::lookup_metric"]}
{"id": "C41", "title": "Spark schemas convert without loss", "statement": "Converting an Analytics schema to Spark and back is the identity; loading a Spark table coerces 32-bit types to 64-bit ones and refuses unsupported types and empty column names. Converting the schema of a loaded table back to Spark gives the types the table has.", "quantifier": "all schemas", "why_tests_cant": "All schemas.", "anchors": ["src/tmlt/analytics/_schema.py::spark_schema_to_analytics_columns", "src/tmlt/analytics/_schema.py::analytics_to_spark_schema", "src/tmlt/analytics/_coerce_spark_schema.py::coerce_spark_schema_or_fail"]}
{"id": "C42", "title": "Query builder shortcuts mean what their names say", "statement": "min, max, median, ungrouped aggregations and histogram build the same query as the corresponding quantile, groupby over the total key set and bin_column/groupby/count; builder steps never change previously cloned queries. Columns created by map, flat_map and flat_map_by_id have the given names and types, and may hold nulls, NaNs and infinities unless a descriptor says otherwise. A query can be started from a name exactly if it is an identifier; other names raise ValueError at once.", "quantifier": "all builder call sequences and arguments", "why_tests_cant": "All call sequences.", "anchors": ["src/tmlt/analytics/query_builder.py::QueryBuilder", "src/tmlt/analytics/query_builder.py::GroupedQueryBuilder"]}
{"id": "C43", "title": "Public joins behave as documented on tables with IDs", "statement": "join_public(how=\"left\") keeps every private row (with nulls when unmatched) for every kind of protected change.", "quantifier": "all tables and protected changes", "why_tests_cant": "Combination of option and protected change that tests skip.", "anchors": ["src/tmlt/analytics/_query_expr_compiler/_base_transformation_visitor.py::BaseTransformationVisitor.visit_join_public"]}
{"id": "C44", "title": "Operations are accepted exactly when they fit the table", "statement": "Selecting, renaming, dropping or replacing special values, enforcing a constraint and mapping are accepted on a table exactly when the columns named exist and have a suitable type, new names do not collide with existing columns, and the ID and grouping columns are kept and untouched. An aggregation is only accepted when its keys are columns of matching type including the grouping column, and the measured column is numeric and is neither a key nor the ID. A rename never loses a column.", "quantifier": "all queries, table schemas and arguments of the operations", "why_tests_cant": "The conditions range over all schemas and argument combinations; a missed collision silently merges columns.", "anchors": ["src/tmlt/analytics/_query_expr.py::Rename.schema", "src/tmlt/analytics/_query_expr.py::Select.schema", "src/tmlt/analytics/_query_expr.py::ReplaceNullAndNan.schema", "src/tmlt/analytics/_query_expr.py::_validate_groupby", "src/tmlt/analytics/_query_expr.py::EnforceConstraint.schema"]}
{"id": "C45", "title": "Partitions split a table by value", "statement": "partition_and_create returns one session per split, in order; each has exactly one private table with the requested name, whose rows are the rows of the partitioned table (truncated by a known constraint if it has privacy IDs) with the split's value, with the same columns. Parts are disjoint. A privacy ID appears in at most as many parts as MaxGroupsPerID on the column allows, or has at most as many rows in all parts together as MaxRowsPerID allows, and adding or removing one ID (or one row of a table without IDs) changes at most that many parts (at most one). A table can be partitioned exactly when it is a private table of the session, has (if it has privacy IDs) a MaxRowsPerID constraint or a MaxGroupsPerID constraint on the column, has the column with type VARCHAR or INTEGER, the splits' values are of that type, distinct and at least one, and a grouping column of the table is the column itself; such a partition is made in every session that has not ended and whose budget allows it. Otherwise the call changes nothing and raises KeyError (unknown table or column), TypeError (a value of another type) or ValueError (a public table, no constraint, bad values, another grouping column).", "quantifier": "all session histories, tables, columns, splits and constraints", "why_tests_cant": "Parallel composition is only sound if this holds for every table, including IDs spread over many groups.", "anchors": ["src/tmlt/analytics/session.py::Session._create_partition_transformation", "src/tmlt/analytics/session.py::Session.partition_and_create"]}
{"id": "C46", "title": "Constraints that hold cost no data", "statement": "If the data satisfies the constraints declared for the table, truncation to these constraints during compilation removes no row: every aggregation (sum, average, variance, standard deviation, quantile, bounds, groups) is computed from exactly the rows of the queried table, up to order, except for null, NaN and infinite measures.", "quantifier": "all queries, tables, declared constraints, privacy definitions", "why_tests_cant": "Ranges over all data and all pipelines of transformations with constraint propagation.", "anchors": ["src/tmlt/analytics/_query_expr_compiler/_base_measurement_visitor.py::BaseMeasurementVisitor._truncate_table", "src/tmlt/analytics/_query_expr_compiler/_constraint_propagation.py"]}
{"id": "C47", "title": "The order of rows never matters", "statement": "Reordering the rows of private tables, public tables or data frames joined with changes no schema, no constraint, no privacy loss and no answer, and turns no accepted query into a refused one.", "quantifier": "all queries, tables, orders of rows and privacy definitions", "why_tests_cant": "All queries and all permutations; Spark gives rows in an arbitrary order.", "anchors": ["src/tmlt/analytics/_query_expr_compiler/_base_transformation_visitor.py", "src/tmlt/analytics/_query_expr_compiler/_base_measurement_visitor.py", "src/tmlt/analytics/_query_expr_compiler/_constraint_propagation.py"]}
{"id": "C48", "title": "Each table operation does to the rows what its documentation says", "statement": "Whatever calls made a query builder, filter keeps exactly the rows satisfying the condition; select, rename, replace_null_and_nan and replace_infinity keep one row per row with the documented cells; drop_null_and_nan and drop_infinity drop exactly the rows with such a cell in the columns looked at; map, bin_column, flat_map and flat_map_by_id apply the function to each row (ID) and take the declared columns, at most max_rows of them without IDs; enforce returns a sub-table satisfying the constraint and leaves a table that already does; public and private joins contain one row for each pair of rows agreeing on the join columns, after the requested truncation, with the documented column names.", "quantifier": "all sequences of builder calls, arguments, user functions, schemas, constraints and tables", "why_tests_cant": "All tables, functions and pipelines; tests fix a few small frames.", "anchors": ["src/tmlt/analytics/query_builder.py::QueryBuilder", "src/tmlt/analytics/_query_expr_compiler/_base_transformation_visitor.py::BaseTransformationVisitor"]}
{"id": "C49", "title": "Sessions describe their tables correctly, whatever happened before", "statement": "In every session reachable from Session.Builder by any sequence of add_public_dataframe, create_view, delete_view, evaluate, partition_and_create and stop calls, each listed table can be described, and the rows it holds have exactly the columns, types and nullability that get_schema reports for it, with the ID or grouping column among them; a query asked there evaluates to a table that matches the schema reported for the query. Presupposes that the data frames passed in hold what their Spark schemas say and that user functions return what they declare.", "quantifier": "all builder call chains, all histories of session calls including failing ones, all sessions of the resulting tree, all tables and queries in them", "why_tests_cant": "The claim is about every interleaving of views, deletions and partitions over every data frame; a test fixes one history and one dataset.", "anchors": ["src/tmlt/analytics/session.py: Session.get_schema, Session._catalog, create_view, delete_view, partition_and_create, add_public_dataframe", "src/tmlt/analytics/_schema.py: spark_dataframe_domain_to_analytics_columns", "src/tmlt/analytics/_query_expr_compiler/_base_transformation_visitor.py: validate_transformation"]}
{"id": "C50", "title": "Constraints a session has recorded hold of its tables", "statement": "In every session reachable from Session.Builder by any sequence of calls, every truncation constraint the session has recorded for a private table with an ID column (and that later queries rely on) is true of the rows of that table.", "quantifier": "all builder call chains, all histories of session calls, all sessions of the tree, all tables with an ID column, all recorded constraints", "why_tests_cant": "A recorded constraint is used without being checked again; whether it can become false depends on the whole history of views and on the data.", "anchors": ["src/tmlt/analytics/session.py: Session._table_constraints, create_view, partition_and_create", "src/tmlt/analytics/_query_expr_compiler/_constraint_propagation.py", "src/tmlt/analytics/constraints/_simplify.py"]}
{"id": "C51", "title": "Exceptions and accounting reveal nothing about private rows", "statement": "Whether a call on Session.Builder or on a session succeeds, which exception it raises, what it charges, and everything a session reports without a measurement (remaining budget, table names, schemas, ID columns and spaces, grouping columns, constraints, which sessions of a partition are active) are the same for all contents of the private tables: running the same calls on two datasets with the same schemas gives the same outcomes at every step. Presupposes that tmlt.core's constructors look at domains and metrics only and that running Spark or tmlt.core does not raise.", "quantifier": "all builder call sequences, all histories of session calls, all pairs of contents of all private tables", "why_tests_cant": "It compares every pair of datasets over every history; a test compares two.", "anchors": ["src/tmlt/analytics/session.py: Session.Builder.build, evaluate, create_view, delete_view, partition_and_create, _compile_and_get_info", "src/tmlt/analytics/_query_expr_compiler/_compiler.py: QueryExprCompiler.__call__, build_transformation", "src/tmlt/analytics/_neighboring_relation.py: validate_input"]}
{"id": "C52", "title": "Other people's rows are unaffected by one person's data", "statement": "Take two datasets that differ only in the rows that some privacy IDs have in the tables of one ID space, and run the same calls on Session.Builder and on the sessions it gives. At every point of the history, in every session of the tree, the rows of all other IDs in every table of that ID space are the same (in the same order), and the table names, schemas, constraints, logs and remaining budgets are the same. Tables outside the ID space are wholly the same in the root session and in every session with a table of the ID space (a partition by a MaxRowsPerID constraint drops the IDs, so its table may change by the truncated rows). Presupposes that tmlt.core's constructors do not look at rows and that user-supplied maps meet their declared outputs.", "quantifier": "all pairs of datasets, all sets of IDs, all builder call chains, all histories of session calls, all sessions and tables", "why_tests_cant": "It compares every pair of neighbouring datasets over every history of views, partitions and queries; joins and truncations could leak one person's rows into another's.", "anchors": ["src/tmlt/analytics/session.py: Session.Builder.build, create_view, partition_and_create, delete_view", "src/tmlt/analytics/_query_expr_compiler/_transformation_visitor.py", "src/tmlt/analytics/_transformation_utils.py"]}
{"id": "C53", "title": "One person changes an aggregation by at most the truncation bound", "statement": "Take two datasets that differ only in the rows of one privacy ID in the tables of one ID space, run the same calls on Session.Builder and on the sessions it gives, and ask the same aggregation with the same budget in the same session of both trees (the root, or a session with a table of that ID space). Then what the two aggregations read is the same, or differs by at most the stability of the truncation chosen from the constraints of the aggregated table: m rows for MaxRowsPerID(m), k*m rows (k groups of at most m rows each, measured in L2 under zCDP when grouping by that column) for MaxGroupsPerID(k) with MaxRowsPerGroupPerID(m); twice that if the person's rows are replaced rather than added or removed. In particular the per-group counts, of rows or of distinct rows, for any set of keys, change by at most that in total (squares under zCDP). This holds through any chain of views and partitions and through the library's own rewriting of the query.", "quantifier": "all pairs of datasets differing in one ID, all builder call chains and histories, all sessions with a table of the ID space, all aggregation queries, budgets and keys", "why_tests_cant": "Sensitivity compares every pair of neighbouring datasets over every pipeline; a test can only show one pair, and a wrong bound silently voids the privacy guarantee.", "anchors": ["src/tmlt/analytics/_query_expr_compiler/_base_measurement_visitor.py: _truncate_table, _constraint_stability, visit_groupby_count, visit_groupby_count_distinct", "src/tmlt/analytics/_query_expr_compiler/_transformation_visitor.py", "src/tmlt/analytics/session.py: Session.evaluate, create_view, partition_and_create", "src/tmlt/analytics/constraints/"]}
{"id": "C54", "title": "A session keeps its privacy budget's promise against adaptive analysts", "statement": "Take two datasets that differ no more than the protected changes of their private tables allow: up to the given number of rows in each table with AddMaxRows, up to the given number of rows in up to the given number of groups in each table with AddMaxRowsInMaxGroups, and all rows of one privacy ID in each ID space of the tables with AddRowsWithID; all of these at once. Build sessions from them with the same calls on Session.Builder and a finite privacy budget. Let an analyst make any number of calls (evaluate, create_view, delete_view, add_public_dataframe, partition_and_create, stop) on the session and the sessions made from it, each chosen from all replies so far. Then the distribution of everything the analyst sees (answers, and which calls raised which exceptions) for the one dataset is within the session's privacy budget of that for the other, in both directions: epsilon for pure, (epsilon, delta) for approximate, rho for zero-concentrated differential privacy. Presupposes that tmlt.core's noise does so for each single measurement, in proportion to how far the tables it reads are apart.", "quantifier": "all pairs of datasets that are neighbours under the protected changes, all builder call chains, all adaptive analysts and numbers of calls, all budgets of the three privacy definitions, all noise that is calibrated per measurement", "why_tests_cant": "It is a statement about probability distributions over all adaptive interactions and all neighbouring datasets; a single overlooked charge, sensitivity or data-dependent exception breaks it.", "anchors": ["src/tmlt/analytics/session.py: Session.evaluate, _compile_and_get_info, partition_and_create, create_view", "src/tmlt/analytics/_query_expr_compiler/_compiler.py: QueryExprCompiler.__call__", "src/tmlt/analytics/_query_expr_compiler/_base_measurement_visitor.py", "src/tmlt/analytics/privacy_budget.py", "src/tmlt/analytics/protected_change.py: AddMaxRows, AddMaxRowsInMaxGroups, AddRowsWithID"]}
{"id": "C55", "title": "Changed rows of tables without IDs spread as far as the operations allow, and no further", "statement": "Take two datasets whose private tables without privacy IDs differ in some rows, and ask the same query on both, in the same session of both. Whether it is accepted does not depend on the dataset, and the number of changed rows of the result is at most what the operations multiply it to: renaming, filtering, selecting, mapping and replacing or dropping null, NaN or infinite values do not increase it; flat_map multiplies it by max_rows; a public join by the largest number of public rows with the same key (at least one for left joins); a private join gives T_right*S_left*M_left + T_left*S_right*M_right for thresholds T and stabilities S of the truncation strategies and changes M of the tables. (TruncationStrategy's documentation gives T_left*S_right*M_left + T_right*S_left*M_right instead, which is too small in general.) What an aggregation reads changes by no more than that, and so do the counts of rows or distinct rows over all groups together.", "quantifier": "all pairs of datasets and numbers of changed rows, all chains of table operations over tables without IDs, all sessions of a tree, all aggregations, budgets and keys", "why_tests_cant": "Stability compares every pair of datasets over every pipeline, including rows that truncation keeps in one dataset and drops in the other; the documented formula passes tests with equal strategies.", "anchors": ["src/tmlt/analytics/truncation_strategy.py: TruncationStrategy", "src/tmlt/analytics/_query_expr_compiler/_transformation_visitor.py: visit_join_private, visit_join_public, visit_flat_map, visit_map, visit_drop_null_and_nan", "src/tmlt/analytics/protected_change.py: AddMaxRows", "src/tmlt/analytics/session.py: Session.evaluate"]}
{"id": "C56", "title": "All the noise of a query is reported, once, and nothing else", "statement": "The noise information of a compiled query lists every noise mechanism that occurs anywhere in its measurement (inside chains, compositions, lists, tuples and dictionaries of any depth), each once and in the order in which they occur, with its mechanism and its parameter rounded to a float; everything that is listed is such a mechanism. A mechanism inside of another mechanism is covered by the outer one. This holds for measurements whose attributes are not called \"name\" and that hold no dictionary or object with an entry \"name\" that is the name of a mechanism; with such an entry the report can raise KeyError or leave out noise. A quantile asked of a reported entry is that of the class of the object that adds the noise, at its parameter.", "quantifier": "all measurement objects of any depth and shape, all roundings", "why_tests_cant": "Measurements nest arbitrarily; tests compare a few compiled queries with literal lists.", "anchors": ["src/tmlt/analytics/_noise_info.py: _noise_from_measurement, _get_info, _noise_from_info", "src/tmlt/analytics/session.py: Session._noise_info"]}
{"id": "C57", "title": "describe tells the truth", "statement": "session.describe() works in every state of every session that has a private table, after any calls: it lists exactly the private tables of the session, each with the schema the session reports for it and the constraints recorded for it, exactly the public tables, the budget that remains, and a line about the state of the session exactly if it is not the active one; a session it calls stopped accepts no query, view, deletion or partition ever again. The table printed for a schema has one full row per column, in order, that states its type, whether it may be null, NaN or infinite, and whether it is the ID column (with its ID space) or the grouping column; schemas that are printed alike agree in all of this. describe(query) prints the schema and the constraints that a view of the query has once it is created, and the schema alone for aggregations. describe(name) prints what describe() prints about that table; it is documented for any table, but raises ValueError for public ones.", "quantifier": "all schemas, all builder call chains and sequences of later calls, all sessions of a tree, all queries and names", "why_tests_cant": "Sessions reach unboundedly many states; doctests compare the output for one or two literal sessions.", "anchors": ["src/tmlt/analytics/session.py: Session.describe, _describe_self, _describe_query_obj, _describe_schema"]}
{"id": "C58", "title": "Collections are validated exactly and parameters are set once", "statement": "validate_collection accepts exactly the collections that contain every required element and no element that is neither required nor optional, whatever the order and repetitions; others are refused with the exception type asked for, if the elements can be sorted (otherwise with TypeError, from building the message). A builder parameter has the first value it was given after any sequence of with_parameter calls; setting it again raises ValueError and changes nothing.", "quantifier": "all collections of any elements, all sequences of with_parameter calls", "why_tests_cant": "An equivalence over all collections, and a statement about call sequences of any length.", "anchors": ["src/tmlt/analytics/_utils.py: validate_collection", "src/tmlt/analytics/_base_builder.py: ParameterMixin"]}
{"id": "C59", "title": "Calls beyond the budget are refused, with the numbers", "statement": "A query that compiles, on a session that was not stopped, is answered if the remaining budget allows the budget asked for, and refused with a RuntimeError if it exceeds what remains by more than the tolerated part in 10^9; likewise for partitions. A refusal changes no table and no account. The message lists what was requested, what remains and, exactly for the numbers that are short, by how much, to three decimals.", "quantifier": "all reachable sessions, queries, budgets and partitions; all rounding functions of the messages' floats that are monotone", "why_tests_cant": "The boundary depends on rational budgets, on the history of spending and on the rounding; tests can only try a few amounts.", "anchors": ["src/tmlt/analytics/session.py: _format_insufficient_budget_msg", "src/tmlt/analytics/session.py: Session.evaluate", "src/tmlt/analytics/session.py: Session.partition_and_create", "src/tmlt/analytics/session.py: Session._spend_budget_without_executing"]}
{"id": "C60", "title": "Equal binning specs are interchangeable", "statement": "Two BinningSpecs are equal exactly if their edges, names, flags and NaN bins are; equality is an equivalence, equal specs have equal hashes, and they put every value into bins with equal names. Comparing a spec with anything else raises TypeError. Equal specs are expected to bin columns of the same type into columns of the same type, which fails: 1 == 1.0.", "quantifier": "all constructed specs over all edge types with Python's comparison laws, all bin name types, all values", "why_tests_cant": "Quantifies over all pairs of specs and all values; tests compare a few literals.", "anchors": ["src/tmlt/analytics/binning_spec.py: BinningSpec.__eq__, __hash__, __call__"]}
{"id": "C61", "title": "KeySets are values", "statement": "A KeySet answers columns(), schema(), dataframe(), size(), ==, is_equivalent and hash the same way whenever it is asked, whatever was called on it, on its operands or on KeySets derived from it, in any order, cached or not. cache() and uncache() affect Spark's storage only: a KeySet's dataframe is stored only between cache() and uncache(), is stored from its first use on, and is never stored twice. (False for callers that change the list of columns they gave to a KeySet: the list is not copied.)", "quantifier": "all programs over any number of lists, KeySets and KeySetPlans, all interleavings of calls, all Spark contents", "why_tests_cant": "Quantifies over all call histories; remembered results go wrong only in particular orders of calls.", "anchors": ["src/tmlt/analytics/keyset/_keyset.py: KeySet.__init__, dataframe, size, cache, uncache, columns, __eq__, __getitem__, from_tuples; KeySetPlan"]}
{"id": "C62", "title": "Answers have the announced columns", "statement": "The schema announced for an aggregation has the key columns as they are in the table, followed by the columns named in the query: whole numbers for counts, decimals for quantiles, averages, variances and standard deviations, the measure's type for sums and bounds, never null. An aggregation is accepted exactly if its keys are columns of the table with the same types, a grouping column is among them, and the measure is a column of numbers that is neither a key nor the ID column. Every row of the answer, suppressed or not, with known or found keys, has exactly the announced columns, with cells of the announced types. (Not so if an output column is named like a key column, or if a KeySet has nulls where the table has none: the schema check accepts both.)", "quantifier": "all aggregations, tables, KeySets, budgets, data and noise", "why_tests_cant": "Quantifies over every query, schema and noisy answer; tests look at a few answers.", "anchors": ["src/tmlt/analytics/_query_expr.py: _validate_groupby, _schema_for_groupby, GetGroups.schema", "src/tmlt/analytics/_query_expr_compiler/_base_measurement_visitor.py: visit_groupby_*, visit_get_bounds, visit_suppress_aggregates", "src/tmlt/analytics/_query_expr_compiler/_measurement_visitor.py: visit_get_groups"]}
{"id": "C63", "title": "KeySet schemas describe the keys", "statement": "schema() of a KeySet built by any nesting of from_tuples, from_dict, from_dataframe, products, joins, unions, differences, selections of columns and filters has exactly the KeySet's columns in order. The type of a column is the type of the values given for it. A column given by values allows nulls if and only if one of the values is null; a column of a dataframe allows what the dataframe's schema says; a column common to both sides of a join allows what both sides allow, a column of a union what either allows; nothing else changes it. Optimising the KeySet changes nothing in this. Every key that dataframe() shows fits the schema.", "quantifier": "all KeySet-building programs, all values, all contents of dataframes that fit their schemas", "why_tests_cant": "Quantifies over every nesting of operations, and over the rewritten trees they lead to.", "anchors": ["src/tmlt/analytics/keyset/_keyset.py: KeySet.schema, from_tuples, from_dict, from_dataframe", "src/tmlt/analytics/keyset/_ops/: schema() of each operation", "src/tmlt/analytics/keyset/_ops/_rules.py: rewrite"]}
{"id": "C64", "title": "Malformed KeySets are refused", "statement": "Building a KeySet raises an exception whenever a documented requirement is broken anywhere in the program: empty or repeated column names, tuples of the wrong length, columns without a value or with values of two types or of a type that cannot be a key, products of KeySets with a common column, joins without one or with different types in one, unions of KeySets with different columns or types, removing keys with other columns or keys of a plan, selecting no, repeated or unknown columns, filtering by an empty string. Requirements that are met are not refused (with the exceptions of C10).", "quantifier": "all KeySet-building programs", "why_tests_cant": "Quantifies over every program; a missing check shows only on inputs nobody thought of.", "anchors": ["src/tmlt/analytics/keyset/_keyset.py: KeySet.from_tuples, from_dict, from_dataframe, __mul__, join, union, __sub__, __getitem__, filter", "src/tmlt/analytics/keyset/_ops/: __post_init__ of each operation", "src/tmlt/analytics/keyset/_ops/_utils.py: validate_column_names, validate_schema"]}
{"id": "C65", "title": "An aggregation over a KeySet answers once for each of its keys", "statement": "The answer to a grouped aggregation over a KeySet built by any program has exactly one row for each key the KeySet documents and no other row, whether or not the key occurs in the data; over a KeySet without columns, exactly one row. Which keys are answered does not depend on the data, the budget, the privacy definition, the noise or the kind of aggregation. With suppression, rows only disappear. The key cells have the announced types and the columns come in the order of the KeySet, followed by the output columns.", "quantifier": "all KeySet programs, aggregations, tables, budgets, privacy definitions and noise", "why_tests_cant": "Ranges over every nesting of KeySet operations combined with every query and every table; duplicates or lost keys appear only for particular combinations.", "anchors": ["src/tmlt/analytics/_query_expr.py: GroupByCount, GroupByBoundedSum, GroupByQuantile, GetBounds, SuppressAggregates", "src/tmlt/analytics/_query_expr_compiler/_base_measurement_visitor.py: _build_groupby, visit_groupby_count", "src/tmlt/analytics/keyset/_keyset.py: KeySet.dataframe, KeySet.schema", "src/tmlt/analytics/session.py: Session.evaluate"]}
{"id": "C66", "title": "With an unlimited budget answers are exact", "statement": "If epsilon (or rho) is infinite, every answer is exact as far as Analytics is concerned: a count is the number of rows of the transformed table with that key; a distinct count the number of different rows, or values of the columns asked for; sums, averages, variances, quantiles and bounds are computed from exactly the rows with that key whose measure is a number, infinities being replaced by the bounds. With columns to group by instead of a KeySet, every key that occurs is answered once and no other; get_groups returns every combination that occurs once.", "quantifier": "all tables that respect their declared constraints, queries, grouping columns and KeySets, privacy definitions and unlimited budgets", "why_tests_cant": "A truncation that drops a row, a share of the budget that becomes finite or a key that is lost shows up only for particular constraints, transformations and data; the claim is about all of them.", "anchors": ["src/tmlt/analytics/_query_expr_compiler/_base_measurement_visitor.py: _get_query_bounds, visit_groupby_count, visit_groupby_count_distinct, visit_groupby_bounded_sum, visit_get_groups", "src/tmlt/analytics/_query_expr_compiler/_measurement_visitor.py: MeasurementVisitor", "src/tmlt/analytics/_query_expr.py: GroupByCount, GroupByCountDistinct, GroupByBoundedSum, GetGroups"]}
{"id": "C67", "title": "One person changes clamped sums and ranks by at most the truncation bound times the clamping bound", "statement": "Take the two sessions of C53 (one person's rows differ) or of C55 (some rows of tables without IDs differ) and the same bounded sum, average, variance, standard deviation or quantile on both. Any number per row that stays between -B and B, added up per group, changes over all groups together by at most B times the number of rows allowed by the truncation (squared and added up, at most its square, under zCDP); twice that if a person is replaced; B times the number of changed rows for tables without IDs. In particular this holds for the measured values clamped to the bounds of the query, with B the larger of the two bounds, and for the number of values that are at most x, with B = 1. The bounds that values are clamped to never lie outside of the bounds the user gave, and equal them if floats are converted exactly. An infinite bound stays infinite on its side, and NaN is refused.", "quantifier": "all pairs of neighbouring datasets, builder call chains, histories and sessions, all aggregations of a measured column with all bounds, budgets and keys, all roundings of bounds", "why_tests_cant": "Sensitivity compares all pairs of neighbouring datasets over all pipelines and all values; a test with a few values cannot show that no value, however large, moves the sum further.", "anchors": ["src/tmlt/analytics/_query_expr_compiler/_base_measurement_visitor.py: _get_query_bounds, _truncate_table, visit_groupby_bounded_sum, visit_groupby_quantile", "src/tmlt/analytics/_query_expr.py: GroupByBoundedSum, GroupByQuantile", "src/tmlt/analytics/session.py: Session.evaluate"]}
{"id": "C68", "title": "Raising a session's budget breaks nothing", "statement": "Take two sessions made from the same tables, the second with a budget of the same kind that is at least as large in every component, and make the same calls on both (and on the sessions of their partitions). If no call asks the first one for more than it has left, read as a float rounded down, then every call has the same outcome on both, be it success or an exception; afterwards there are the same sessions in the same states, with the same tables and constraints, charged for the same amounts, and each session of the second run has at least as much left.", "quantifier": "all budgets of all three kinds (including infinite ones), all tables, all sequences of calls on all sessions of the tree, all monotone roundings", "why_tests_cant": "A run compares two histories of any length; a test fixes both the budgets and the calls.", "anchors": ["src/tmlt/analytics/session.py: Session.evaluate, Session.partition_and_create, Session.create_view, Session.delete_view, Session.stop, Session._process_requested_budget", "src/tmlt/analytics/privacy_budget.py: _get_adjusted_budget"]}
{"id": "C69", "title": "An answer depends only on the tables the query names", "statement": "If two sessions (of one tree of sessions or of different ones, after any calls) have the same private tables with the same constraints, and the same public tables, under the names that occur in a query, then the query has the same schema, the same rows, the same answer and the same charge in both, or is refused in both with the same exception, whatever other tables they have. In particular, creating and deleting views with other names, adding public tables with other names, evaluating queries, partitioning and stopping, in this session or others, never changes the answer to a query.", "quantifier": "all queries, all tables, all histories of calls on all sessions of the tree", "why_tests_cant": "A test can only try some other tables and some calls in between; compiling a query walks it several times, with a catalog of all tables of the session at hand.", "anchors": ["src/tmlt/analytics/_query_expr_compiler/_compiler.py: QueryExprCompiler", "src/tmlt/analytics/_query_expr_compiler/_base_transformation_visitor.py: BaseTransformationVisitor.visit_private_source, BaseTransformationVisitor.visit_join_public", "src/tmlt/analytics/_query_expr_compiler/_rewrite_rules.py: rewrite", "src/tmlt/analytics/session.py: Session.evaluate, Session.create_view, Session.delete_view, Session.add_public_dataframe, Session._catalog"]}
{"id": "C70", "title": "KeySets obey the laws of relational algebra", "statement": "Two ways to write a KeySet that the laws of relational algebra make equal give KeySets that are ==, of the same size and with the same keys. The laws: products, joins and unions commute, are associative, and joins and unions with oneself change nothing; from_dict is the product of its parts; a product is joined, and a part subtracted from it, in the factor concerned; joins and products distribute over unions; subtracted parts can be subtracted in any order, together or twice; what is left after A-B is subtracted from A is A joined with B, and both together are A; filters commute, and can be applied before unions and differences; projections compose, keep a KeySet with all its columns, and distribute over unions and products. The laws can be applied anywhere within a KeySet, any number of times, as long as all the KeySets on the way can be made.", "quantifier": "all KeySets built by any finite nesting of the operations, all chains of laws of any length", "why_tests_cant": "Tests compare a few pairs of KeySets; the laws must hold for all nestings, whatever the optimizer makes of each side.", "anchors": ["src/tmlt/analytics/keyset/_keyset.py: KeySet.__mul__, KeySet.join, KeySet.union, KeySet.__sub__, KeySet.__getitem__, KeySet.filter, KeySet.__eq__, KeySet.size", "src/tmlt/analytics/keyset/_ops/__init__.py"]}
{"id": "C71", "title": "Table queries with a schema are computed or refused for known reasons", "statement": "A table query (no aggregation) that the constructors accept and whose schema is accepted is either computed or refused with a ValueError. It is refused exactly if somewhere in it a flat_map of a table without IDs gives no max_rows, or a private join involves a grouping column, or joins ID tables without joining on the ID column, or joins tables without IDs without giving both truncation strategies, or a public join renames the ID or grouping column. So a session accepts create_view(query) with a fresh valid name exactly for the other queries. Only left public joins of ID tables, grouping flat_maps that do not augment, and default treatment of infinities where the ID or grouping column is a float column can end in an internal error.", "quantifier": "all table queries of any depth, all sessions reachable from any builder calls by any history, all tables", "why_tests_cant": "Tests create a few views; that no accepted query fails for another reason must hold for all nestings of operations.", "anchors": ["src/tmlt/analytics/_query_expr_compiler/_base_transformation_visitor.py: BaseTransformationVisitor", "src/tmlt/analytics/_query_expr.py: QueryExpr.schema", "src/tmlt/analytics/session.py: Session.create_view"]}
{"id": "C72", "title": "Calls on query builders are refused exactly for faulty arguments", "statement": "A call on a query builder, grouped builder or query is refused at once exactly if its arguments are at fault, and then changes nothing: a source name that is not an identifier; join columns that are empty or repeated; a join other than inner or left; a frame with an empty column name or unsupported type; replacement values that are null, NaN or infinite; an empty new name; repeated columns in select; new columns without a name or of unknown type; a grouping flat_map with other than one new column; a negative max_rows; an unknown mechanism name; a lower bound that is not below the upper bound; a quantile outside [0, 1]; grouping by columns without automatic partition selection; suppressing anything but counts. The exception is ValueError, except for the last (AttributeError) and for aggregating by columns after automatic partition selection has been switched off (RuntimeError). Truncation strategies and constraints need a positive bound and a column name.", "quantifier": "all sequences of calls on any number of builders, all arguments", "why_tests_cant": "Tests try a few bad arguments per method; that no other argument is refused, and no faulty one accepted, must hold for all arguments and all states of the objects.", "anchors": ["src/tmlt/analytics/query_builder.py: QueryBuilder, GroupedQueryBuilder, GroupbyCountQuery", "src/tmlt/analytics/_query_expr.py: __post_init__", "src/tmlt/analytics/truncation_strategy.py: TruncationStrategy", "src/tmlt/analytics/constraints/_truncation.py: MaxRowsPerID, MaxGroupsPerID, MaxRowsPerGroupPerID"]}
{"id": "C73", "title": "Aggregations are answered or refused for known reasons", "statement": "An aggregation (count, count_distinct, sum, average, variance, stdev, quantile, get_bounds, get_groups; with or without suppression of small counts) that the constructors accept and whose schema is accepted, on a table query as in C71, is compiled, or refused for one of these reasons with this exception: Gaussian noise without zCDP (ValueError); a measure that may be infinite with infinite bounds (ValueError); a table that cannot be computed (ValueError); keys to be found with a budget that is not approximate DP with positive epsilon and delta (ValueError); a table with IDs for which the known constraints give no bound on the rows of an ID (RuntimeError), unless the IDs themselves are counted; get_groups without approximate DP (ValueError) or of the ID column (RuntimeError); count_distinct of columns that do not exist, or that leave out the grouping column of the truncation (ValueError), or with keys to be found (AttributeError). Only aggregations with Laplace noise, and get_bounds, in zCDP sessions with tables protected by groups can end in an internal error. A session in use whose budget allows the request answers exactly the compiled ones. Whatever the query, a budget of another kind and a budget of nothing at all are refused with a ValueError. Queries that are no aggregations raise NotImplementedError.", "quantifier": "all aggregations over table queries of any depth, all budgets, all sessions reachable from any builder calls by any history, all tables", "why_tests_cant": "Tests evaluate a few queries; that no accepted query fails for another reason, and that every listed reason is noticed before noise is drawn, must hold for all combinations of operations, constraints and budgets.", "anchors": ["src/tmlt/analytics/_query_expr_compiler/_base_measurement_visitor.py: BaseMeasurementVisitor", "src/tmlt/analytics/_query_expr_compiler/_compiler.py: QueryExprCompiler", "src/tmlt/analytics/_query_expr_compiler/_rewrite_rules.py: rewrite", "src/tmlt/analytics/session.py: Session.evaluate"]}
{"id": "C74", "title": "A table written in two ways is the same table", "statement": "Table queries obey laws: filters may be exchanged, and once is enough; a filter may be moved before or after a selection that keeps the columns it reads, a renaming or an augmenting map that leaves these columns alone, drop_null_and_nan and drop_infinity, replacements of missing or infinite values in other columns, an augmenting flat_map that leaves these columns alone, a join with a public table by columns that include them, and, on either side, a join of two tables with IDs by such columns (where the filtered side is not a table of the session itself); of two selections the last one counts; dropping rows for two lists of columns is dropping for both at once, in any order of columns, and missing and infinite values may be dropped in either order; dropping rows for columns whose missing values, or whose infinite values by finite ones, have just been replaced drops nothing; two augmenting maps are one map; columns added by an augmenting map and not selected afterwards do not matter; of two bounds of the same kind enforced one after the other the smaller one counts. When both sides of each law used are accepted and can be computed, queries that differ by any number of such steps in any parts have the same schema, the same rows, the same ID column and the same constraints; and an aggregation of one is refused, or costs the same and has the same answer, as that of the other. Exchanging a filter with enforce() is not such a law.", "quantifier": "all table queries of any depth, all chains of laws in any parts of them, all tables and constraints, all aggregations over them, all budgets", "why_tests_cant": "A test compares two particular queries on one table; here arbitrary queries around and inside the exchanged operations, arbitrary constraints and arbitrary rows must give the same result.", "anchors": ["src/tmlt/analytics/_query_expr_compiler/_base_transformation_visitor.py: BaseTransformationVisitor", "src/tmlt/analytics/_query_expr.py: Filter", "src/tmlt/analytics/_query_expr.py: Select", "src/tmlt/analytics/_query_expr.py: DropNullAndNan", "src/tmlt/analytics/_query_expr.py: EnforceConstraint", "src/tmlt/analytics/constraints/_truncation.py", "src/tmlt/analytics/constraints/_simplify.py"]}
{"id": "C75", "title": "Affordable questions are answered in any order", "statement": "If queries with given budgets together ask for no more than a session has left, then evaluating them in that session in any order gives each the outcome, and the answer, that it would have had alone: answered, or refused with the same exception. The session is charged for exactly the answered ones, each what it asked for, keeps its tables and constraints, and has the same budget left whatever the order. Beyond what is left the order does matter.", "quantifier": "all sessions in all reachable states, all lists of queries with budgets that are floats, all orders of them, all monotone roundings to floats", "why_tests_cant": "Budgets are tracked exactly but compared after rounding to floats, with a tolerance that may lower a charge; that this never makes a difference while the budget suffices needs an argument about all sums and orders.", "anchors": ["src/tmlt/analytics/session.py: Session.evaluate", "src/tmlt/analytics/session.py: Session._process_requested_budget", "src/tmlt/analytics/privacy_budget.py: _get_adjusted_budget"]}
{"id": "C76", "title": "What a session does next depends only on what it shows", "statement": "Two sessions (with the sessions split off them) that have the same private tables, constraints, public tables, ID spaces, budgets, charges and accountant states react alike to every further sequence of calls: each call succeeds or fails with the same exception, every query has the same answer, partitions make sub-sessions at the same places, and afterwards the sessions still show the same. So the order of the builder's calls, whether a view is cached, and a view that was created and deleted again make no difference to anything a user can see; a view that was just created in an active session can always be deleted.", "quantifier": "all reachable states of two session trees, all sequences of calls with named splits, all builder call sequences and their permutations, all queries and view names", "why_tests_cant": "Views, caching, deletions and the builder leave different internal tables and orders behind; that none of this ever influences a later call must hold for all histories and all futures.", "anchors": ["src/tmlt/analytics/session.py: Session.Builder", "src/tmlt/analytics/session.py: Session.create_view", "src/tmlt/analytics/session.py: Session.delete_view", "src/tmlt/analytics/session.py: Session.partition_and_create", "src/tmlt/analytics/_table_reference.py: find_reference"]}
{"id": "C77", "title": "An aggregation over a view is answered, and charged, like the same aggregation over the view's definition", "statement": "After create_view(d, v) succeeded, every aggregation that names the view v (counts, distinct counts, sums, averages, variances, standard deviations, quantiles, bounds, groups of named columns, suppressed counts, over any transformations) has exactly the answer that the aggregation with v replaced by d had before, or is refused if that was; evaluating it is charged the same amount. The same holds for views on views, to any depth. This needs the noise to be of the kind that the session's budget suggests, or a table without grouping column: in a session with a zCDP budget, a view with a grouping column cannot be aggregated with Laplace noise (an internal error is raised), although its definition can.", "quantifier": "every session built by the session builder, after any calls, on any path of partitions; every view definition, every chain of views, every aggregation, mechanism, keys and budget; every environment and core", "why_tests_cant": "it ranges over all view definitions and all aggregations on top of them; a test compares one view with one definition, and the catalogs, column orders, special-value handling and truncation differ between the two ways of asking", "anchors": ["src/tmlt/analytics/session.py: Session.create_view", "src/tmlt/analytics/session.py: Session.evaluate", "src/tmlt/analytics/_query_expr_compiler/_measurement_visitor.py: _visit_child_transformation", "src/tmlt/analytics/_query_expr_compiler/_compiler.py: build_transformation", "src/tmlt/analytics/_query_expr_compiler/_base_transformation_visitor.py: validate_transformation"]}
{"id": "C78", "title": "What is asked of a part of a partition is answered as if it were asked of the rows with the part's value", "statement": "Let partition_and_create split the table src by a column, and let a condition select the rows of src with the value of the part called name. If src has no ID column and no grouping column, the part's table is the same table, with the same columns and constraints, as the view called name of src filtered by the condition, created in the session instead of the partition; every query about the part (with joins of public tables, views aside) has the same answer as about that view, or is refused with the same exception, and costs the same if as much budget is left; and it has the answer that the query with name replaced by the filtered table has in the session that was split. If src has IDs and is limited in the number of values of the column per ID, the part's table is the same as the view of src with that limit enforced and then filtered, but the part has no constraints.", "quantifier": "every session built by the session builder, after any calls, on any path of partitions; every table, column, list of splits, part, budget; every query about the part, mechanism and core", "why_tests_cant": "it ranges over all tables, splits and queries; a test compares one part with one filter on a few rows", "anchors": ["src/tmlt/analytics/session.py: Session.partition_and_create", "src/tmlt/analytics/session.py: Session._create_partition_transformation", "src/tmlt/analytics/session.py: Session.create_view", "src/tmlt/analytics/session.py: Session.evaluate"]}
{"id": "C79", "title": "Sessions used in turn do not interfere", "statement": "Ask questions of several sessions of one tree of partitions in turn, such that each session comes after those below it and after earlier parts of the partitions it is in (for example: the parts of a partition in their order, then the session that was split). If each session can pay for its own questions, every question has the outcome, success or the same exception, that it would have had if it were the only one; each session is charged for exactly its own answered questions, each what it asked for, and keeps its tables and constraints. The order is needed: once a question was answered in a session, the sessions that should have come before are retired, and asking them raises and changes nothing.", "quantifier": "every reachable state of every tree of sessions, any nesting of partitions, any number of sessions and questions, any queries and budgets; every environment whose rounding down respects order", "why_tests_cant": "it ranges over all trees of partitions, all orders that respect the nesting and all lists of questions; a test runs one partition with a few queries", "anchors": ["src/tmlt/analytics/session.py: Session.evaluate", "src/tmlt/analytics/session.py: Session.partition_and_create", "src/tmlt/analytics/session.py: Session._activate_accountant", "src/tmlt/analytics/session.py: Session._process_requested_budget"]}
{"id": "C80", "title": "Views and public tables are made and deleted exactly when they can be", "statement": "In every session, after any calls: add_public_dataframe works exactly if the name is an identifier that no table of the session has and the frame has only supported, named columns, and raises ValueError otherwise; create_view works exactly if the name is an identifier that no table of the session has, the session has not ended and its query can be computed there, and otherwise raises ValueError for the name, RuntimeError for an ended session, or the exception that computing the query raises; delete_view works exactly for the private tables of a session that has not ended, except the last one of its collection if tmlt.core refuses empty collections, and otherwise raises RuntimeError, KeyError or ValueError in these cases; stop works in the active session and in sessions that have ended. delete_view deletes views and no other tables.", "quantifier": "every environment, every session of every reachable tree of sessions, all names, frames and queries", "why_tests_cant": "which call is accepted depends on everything that was added, created, deleted, partitioned and stopped before; tests try single calls on fresh sessions", "anchors": ["src/tmlt/analytics/session.py: Session.add_public_dataframe", "src/tmlt/analytics/session.py: Session.create_view", "src/tmlt/analytics/session.py: Session.delete_view", "src/tmlt/analytics/session.py: Session.stop", "src/tmlt/analytics/_transformation_utils.py: delete_table", "src/tmlt/analytics/_coerce_spark_schema.py: coerce_spark_schema_or_fail"]}
{"id": "C81", "title": "Calls that raise can be left out of a session's history", "statement": "A call on a session that raises leaves everything exactly as it was, unless its session was waiting for its parts or for an earlier part; then that session may have become the active one (which ends the others), and still all budgets, tables, views and histories are as they were. So if the calls that raised are left out of a history, and none of them was made in a session that was waiting, all other calls still work and everything ends up the same. In particular this holds for all histories without partitions. For calls in waiting sessions it does not: a create_view that raises in the parent ends the parts.", "quantifier": "every environment, every reachable state, every list of calls of every kind", "why_tests_cant": "it compares two runs of arbitrary histories; tests check after one failing call that one value is unchanged", "anchors": ["src/tmlt/analytics/session.py: Session.evaluate", "src/tmlt/analytics/session.py: Session.create_view", "src/tmlt/analytics/session.py: Session.delete_view", "src/tmlt/analytics/session.py: Session.add_public_dataframe", "src/tmlt/analytics/session.py: Session.partition_and_create", "src/tmlt/analytics/session.py: Session.stop", "src/tmlt/analytics/session.py: Session._activate_accountant"]}
{"id": "C82", "title": "The names of tables carry no meaning", "statement": "Giving the private and public tables of a session other names, different ones for different tables and valid ones where the old ones were valid, changes nothing but the names. A session can be built if and only if it could be built with the old names. Every history of calls (evaluations, views, public tables, deletions, partitions, stopping) made with the new names, in the session or in parts of it, goes like the same history with the old names: every call works or raises the same type of exception, the same budget is left in every session, and every query written with the new names has the same schema, the same answer, or the same type of exception. In particular it does not matter whether a name is that of a private or of a public table, or in which order names sort.", "quantifier": "every bijective renaming, every environment that does not look at names, all builder calls, all histories of calls of every kind, every query, budget and session of the tree", "why_tests_cant": "it relates two arbitrary histories under an arbitrary renaming; tests use fixed names", "anchors": ["src/tmlt/analytics/session.py: Session.evaluate", "src/tmlt/analytics/session.py: Session.create_view", "src/tmlt/analytics/session.py: Session.delete_view", "src/tmlt/analytics/session.py: Session.add_public_dataframe", "src/tmlt/analytics/session.py: Session.partition_and_create", "src/tmlt/analytics/session.py: Session.Builder", "src/tmlt/analytics/_table_reference.py: find_reference", "src/tmlt/analytics/_query_expr_compiler/_compiler.py: QueryExprCompiler"]}
{"id": "C83", "title": "Exact answers add up", "statement": "With an unlimited budget, answers of different groupings of the same query fit together. If one count is grouped by some of the columns of another, by columns or by KeySets, and the finer grouping leaves no row out, then every count of the coarser grouping is the total of the counts of the finer one whose keys agree with it. In particular the counts of a grouping add up to the count without grouping. The same holds for sums with the same bounds. A distinct count of the coarser grouping is at most the total of the finer ones and at least each of them. A count in a part of a partition of a table without IDs is the count of the whole table for the same key and the part's value. It does not matter which privacy definitions the two queries use, nor what was done in the session before. The answer for a key does not depend on which other keys are asked for, nor on whether they come from a KeySet or from the columns.", "quantifier": "all tables that respect their declared constraints, queries, pairs of groupings one of which refines the other, privacy definitions, unlimited budgets and histories of the session", "why_tests_cant": "it relates two arbitrary queries on arbitrary tables; a test compares two particular answers", "anchors": ["src/tmlt/analytics/_query_expr_compiler/_base_measurement_visitor.py: visit_groupby_count, visit_groupby_count_distinct, visit_groupby_bounded_sum", "src/tmlt/analytics/_query_expr.py: GroupByCount, GroupByCountDistinct, GroupByBoundedSum", "src/tmlt/analytics/query_builder.py: GroupedQueryBuilder", "src/tmlt/analytics/session.py: Session.partition_and_create"]}
{"id": "C84", "title": "Exact counts of a truncated table count each person up to the bound", "statement": "With an unlimited budget, the total count of a table after enforce(MaxRowsPerID(n)) is the sum over all IDs of the number of their rows, each counted as at most n; the count of a group after enforce(MaxRowsPerGroupPerID(column, n)), grouped by that column, is the sum over all IDs of the number of their rows in the group, each at most n; and the number of different pairs of ID and group after enforce(MaxGroupsPerID(column, n)) is the sum over all IDs of the number of their groups, each at most n. Whatever a count is grouped by, raising a bound never lowers it, and no bound raises it above the count of the table before enforce(). This holds in every state of a session.", "quantifier": "all table queries of tables with IDs, all bounds, all key sets, all tables, all privacy measures and mechanisms, all histories of a session", "why_tests_cant": "A test compares a few bounds on one table; here arbitrary numbers of rows per ID, arbitrary queries below the truncation and the compiler's own second truncation must together lose exactly what the bound says.", "anchors": ["src/tmlt/analytics/_query_expr_compiler/_base_transformation_visitor.py: BaseTransformationVisitor", "src/tmlt/analytics/_query_expr_compiler/_base_measurement_visitor.py: BaseMeasurementVisitor", "src/tmlt/analytics/constraints/_truncation.py", "src/tmlt/analytics/query_builder.py: QueryBuilder"]}
{"id": "C85", "title": "Exact answers follow what is done to the table", "statement": "With an unlimited budget, a count taken after further steps on a table is related to the count before them as the steps announce, for each key whose columns they leave alone: selecting, renaming, adding columns and replacing values change no count; filters, dropped nulls or infinities and enforced constraints never raise one; a flat map raises it at most by the factor max_rows (without IDs) or by the number of rows its function returns; a join with a public table raises it at most by the number of rows the table has per join key, and a left join of a table without IDs never lowers it; a join of two private tables without IDs raises it at most by the number of rows that the truncation of the other table keeps per join key. For several steps the factors multiply. Distinct counts of columns that the steps leave alone never grow, and stay the same if no step drops rows. Grouping by columns, no key appears that was not there before, and none disappears if no step drops rows. Sums, averages, variances, quantiles and bounds do not change when every step turns each row into exactly one (such as a left join with a table that has each key at most once) and leaves keys and measure alone. Counts and sums of two filters of which every row passes exactly one add up to the count and sum without them. Swapping the sides of a join of private tables, with their truncations, changes no count by join columns. A filter that only passes rows another filter passes never counts more than it, and grouping by columns shows no key that the other does not.", "quantifier": "all tables that respect their declared constraints, all chains of steps, groupings, privacy definitions, unlimited budgets and histories of the session", "why_tests_cant": "it relates the answers of two arbitrary queries, one built from the other by any number of steps, on arbitrary tables", "anchors": ["src/tmlt/analytics/_query_expr_compiler/_base_transformation_visitor.py: visit_filter, visit_select, visit_map, visit_flat_map, visit_join_public, visit_join_private, visit_drop_null_and_nan", "src/tmlt/analytics/_query_expr_compiler/_base_measurement_visitor.py: visit_groupby_count", "src/tmlt/analytics/query_builder.py: QueryBuilder"]}
