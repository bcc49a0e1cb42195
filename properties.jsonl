{"id": "C01", "title": "Parents come before children in the vector layout", "statement": "After any sequence of successful add() calls, iterating the space lists hyperparameters in strictly increasing (condition depth, name) order, and every conditional hyperparameter has a larger vector index than each hyperparameter its condition reads.", "quantifier": "every finite history of successful add() calls with arbitrary hyperparameters, conditions and forbidden clauses", "why_tests_cant": "the set of histories and of condition graphs is unbounded; default-value computation, sampling and grid generation all silently rely on the order", "anchors": ["src/ConfigSpace/_condition_tree.py: DAG.update, DAG.add_condition, HPNode.__lt__, HPNode.propogate_new_depth"]}
{"id": "C02", "title": "Vector layout does not depend on insertion order", "statement": "Two histories of successful add() calls that declare the same hyperparameters and the same conditions (in any order and any grouping into calls) give the same name list `at`, the same `index_of`, hence the same meaning for every vector.", "quantifier": "all pairs of histories with the same final declarations", "why_tests_cant": "the number of permutations and groupings is unbounded", "anchors": ["src/ConfigSpace/_condition_tree.py: DAG.update, HPNode.__lt__, HPNode.propogate_new_depth"]}
{"id": "C03", "title": "index_of, at, keys, values and len describe one bijection", "statement": "After a successful add(): at[index_of[n]] = n for every key, index_of[at[i]] = i for every i < len(space), keys() are exactly the added names without repetition, and len(space) is their number.", "quantifier": "every history of successful add() calls, every name and index", "why_tests_cant": "must hold for every history, not for a sample of them", "anchors": ["src/ConfigSpace/_condition_tree.py: DAG.update", "src/ConfigSpace/configuration_space.py: ConfigurationSpace.index_of, at, __len__, __iter__, items"]}
{"id": "C04", "title": "Depth is the longest chain of conditions", "statement": "The depth used for the layout of a hyperparameter equals one plus the length of the longest chain of conditions leading to it; in particular it is 1 exactly for hyperparameters without a condition.", "quantifier": "every history of successful add() calls; every hyperparameter; every path in the condition graph", "why_tests_cant": "depth is maintained incrementally by a recursive propagation whose correctness depends on the whole history", "anchors": ["src/ConfigSpace/_condition_tree.py: HPNode.propogate_new_depth, DAG.add_condition"]}
{"id": "C05", "title": "Cyclic conditions are rejected, and only those", "statement": "add_condition raises CyclicDependancyError exactly when the graph of 'child is conditional on parent' edges, including the new edge, has a directed cycle; so a space built by successful calls is always acyclic.", "quantifier": "all finite directed graphs, all orders of adding edges", "why_tests_cant": "graphs of every size and shape; the iterative depth first search keeps duplicates on its stack, which small tests do not exercise", "anchors": ["src/ConfigSpace/_condition_tree.py: DAG._check_cyclic_dependancy, DAG.add_condition"]}
{"id": "C06", "title": "At most one condition per hyperparameter", "statement": "A hyperparameter never ends up with two different conditions: adding a condition for a child that already has a different one raises AmbiguousConditionError; adding an equal one again succeeds and leaves depths, layout and activation unchanged.", "quantifier": "all spaces and all conditions, conjunctions included", "why_tests_cant": "needs every pair (existing condition, new condition)", "anchors": ["src/ConfigSpace/_condition_tree.py: DAG.add_condition", "src/ConfigSpace/conditions.py: Condition.__eq__, Conjunction.__eq__"]}
{"id": "C07", "title": "Referential integrity of conditions and forbidden clauses", "statement": "After a successful add(), every condition's child and parents and every forbidden clause's hyperparameters are names of the space; adding one that refers to an unknown name raises ChildNotFoundError, ParentNotFoundError or HyperparameterNotFoundError.", "quantifier": "every history of successful add() calls, every condition and clause tree", "why_tests_cant": "clause trees are unbounded", "anchors": ["src/ConfigSpace/_condition_tree.py: DAG.add_condition, DAG.add_forbidden"]}
{"id": "C08", "title": "A failed add() leaves the space unchanged", "statement": "If add() raises, then the space has the same hyperparameters, conditions, forbidden clauses and vector layout as before the call, and later calls behave as if it had not happened.", "quantifier": "every reachable space, every argument list, every exception", "why_tests_cant": "each position inside the argument list is a separate crash point", "anchors": ["src/ConfigSpace/configuration_space.py: ConfigurationSpace.add", "src/ConfigSpace/_condition_tree.py: DAG.update, DAG.add, DAG.add_condition, DAG.add_forbidden"]}
{"id": "C09", "title": "Unconditional and conditional hyperparameters partition the space", "statement": "unconditional_hyperparameters are exactly the hyperparameters with no condition, conditional_hyperparameters are exactly those with one; together they list every name exactly once.", "quantifier": "every history of successful add() calls", "why_tests_cant": "roots are recomputed from depth and not from the conditions themselves, so agreement is an invariant over the history", "anchors": ["src/ConfigSpace/_condition_tree.py: DAG.update", "src/ConfigSpace/configuration_space.py: unconditional_hyperparameters, conditional_hyperparameters"]}
{"id": "C10", "title": "children_of and parents_of are inverse relations", "statement": "c is listed in children_of[p] exactly when p is listed in parents_of[c], exactly when c's condition reads p; parent_conditions_of[c] holds precisely that condition.", "quantifier": "every history of successful add() calls, every pair of names", "why_tests_cant": "pairs of names over unbounded histories", "anchors": ["src/ConfigSpace/_condition_tree.py: DAG.add_condition, DAG.update", "src/ConfigSpace/configuration_space.py: children_of, parents_of, parent_conditions_of"]}
{"id": "C11", "title": "Vector, batch and value evaluation of a condition agree", "statement": "For a configuration in which every parent read by the condition has a legal value, satisfied_by_value on the values, satisfied_by_vector on the vector and satisfied_by_vector_array on any batch containing that vector give the same answer.", "quantifier": "every condition tree (any nesting of And/Or over ==, !=, <, >, in), every hyperparameter kind, every legal value, every batch", "why_tests_cant": "three separate implementations have to agree on unboundedly many trees and values", "anchors": ["src/ConfigSpace/conditions.py: BinaryOpCondition, InCondition, AndConjunction, OrConjunction"]}
{"id": "C12", "title": "A condition on an inactive parent is not satisfied", "statement": "If the parent of a condition is inactive (no value; NaN in the vector) the condition is not satisfied, in the vector, batch and value evaluation alike.", "quantifier": "every elementary condition and every vector with NaN at the parent", "why_tests_cant": "quantifies over all condition kinds and vectors", "anchors": ["src/ConfigSpace/conditions.py: BinaryOpCondition.satisfied_by_vector, satisfied_by_vector_array, satisfied_by_value"]}
{"id": "C13", "title": "Merging equivalent conditions preserves activity", "statement": "Hyperparameters that the space decides to treat with one shared activation check have conditions with the same truth value on every vector, and each conditional hyperparameter is handled by exactly one such check.", "quantifier": "every space and every vector", "why_tests_cant": "an equivalence between syntactic grouping and semantics for all condition trees", "anchors": ["src/ConfigSpace/_condition_tree.py: DAG._minimum_conditions, ConditionNode.has_equivalent_condition", "src/ConfigSpace/conditions.py: equivalent_condition_on_parent"]}
{"id": "C14", "title": "Merged forbidden checks are equivalent to the declared clauses", "statement": "A vector is rejected by the optimised forbidden checks exactly when it violates at least one of the forbidden clauses the user declared.", "quantifier": "every list of forbidden clauses, every layout, every vector (NaN included)", "why_tests_cant": "unbounded lists of clauses and vectors; the optimisation regroups AND clauses by their leading parts", "anchors": ["src/ConfigSpace/_condition_tree.py: DAG._optimized_forbiddens, DAG.fast_forbidden_checks"]}
{"id": "C15", "title": "Vector, batch and value evaluation of forbidden clauses agree", "statement": "For a configuration with legal values, is_forbidden_value on the values, is_forbidden_vector on its vector and is_forbidden_vector_array on any batch containing it give the same answer, for equals, in, and-conjunctions and relations.", "quantifier": "every clause tree, every set of active hyperparameters, every legal value", "why_tests_cant": "three separate implementations over unbounded clause trees", "anchors": ["src/ConfigSpace/forbidden.py: ForbiddenEqualsClause, ForbiddenInClause, ForbiddenAndConjunction, Forbidden*Relation"]}
{"id": "C16", "title": "A forbidden clause never fires on an inactive hyperparameter", "statement": "If any hyperparameter read by an elementary forbidden clause or relation is inactive then the clause is not violated, and neither is a conjunction containing it.", "quantifier": "every clause tree, every vector", "why_tests_cant": "all clause trees and activity patterns", "anchors": ["src/ConfigSpace/forbidden.py: is_forbidden_vector, is_forbidden_value"]}
{"id": "C17", "title": "Configuration(values=...) accepts exactly the valid configurations", "statement": "Construction from values succeeds iff the keys are known, every given value is legal, exactly the active hyperparameters (unconditional, or condition satisfied by active parents) have values, and no forbidden clause is violated.", "quantifier": "every space and every dictionary of values", "why_tests_cant": "all spaces times all dictionaries", "anchors": ["src/ConfigSpace/configuration.py: Configuration.__init__", "src/ConfigSpace/util.py: check_configuration"]}
{"id": "C18", "title": "A configuration reads back the values it was given", "statement": "For every accepted dictionary, config[k] is the given value (floats rounded to 13 decimals) for each given key, other keys are absent, and iteration yields exactly the given keys; a copy rebuilt from the vector reads back the same values.", "quantifier": "every space, every accepted dictionary, every key", "why_tests_cant": "round trip over all legal values of all hyperparameter kinds", "anchors": ["src/ConfigSpace/configuration.py: Configuration.__getitem__, __iter__, __contains__", "src/ConfigSpace/hyperparameters/hp_components.py: TransformerSeq, UnitScaler, TransformerConstant"]}
{"id": "C19", "title": "Assigning a value is all or nothing", "statement": "config[k] = v either raises and leaves the vector and all values of the configuration unchanged, or succeeds and the configuration then passes the validity check with config[k] = v.", "quantifier": "every configuration, key and value", "why_tests_cant": "every failing point of the assignment is a crash point", "anchors": ["src/ConfigSpace/configuration.py: Configuration.__setitem__", "src/ConfigSpace/util.py: change_hp_value, check_configuration"]}
{"id": "C20", "title": "A legal, non forbidden assignment succeeds", "statement": "If config is valid, v is legal for an active k and the configuration obtained by setting k, activating newly enabled descendants with defaults and dropping disabled ones violates no forbidden clause, then config[k] = v succeeds and yields that configuration.", "quantifier": "every space, valid configuration, active key and legal value", "why_tests_cant": "depends on a precomputed update order for all condition graphs", "anchors": ["src/ConfigSpace/util.py: change_hp_value", "src/ConfigSpace/_condition_tree.py: DAG.change_hp_lookup, DAG.minimum_conditions"]}
{"id": "C21", "title": "The default configuration is valid and uses the defaults", "statement": "After a successful add(), get_default_configuration() returns a valid configuration in which every active hyperparameter has its declared default; computing it never fails with a KeyError.", "quantifier": "every history of successful add() calls", "why_tests_cant": "evaluation order and values interact with all graphs", "anchors": ["src/ConfigSpace/configuration_space.py: _check_default_configuration, get_default_configuration"]}
{"id": "C22", "title": "Sampling never returns a forbidden configuration", "statement": "No configuration returned by sample_configuration violates a forbidden clause, whatever the random numbers.", "quantifier": "every space, every stream of random numbers, every size", "why_tests_cant": "random streams are unbounded; clauses on unconditional hyperparameters are checked before activity is resolved", "anchors": ["src/ConfigSpace/configuration_space.py: sample_configuration"]}
{"id": "C23", "title": "Sampling returns only valid configurations", "statement": "In every sampled configuration exactly the active hyperparameters have values, and all values are legal.", "quantifier": "every space, every stream of random numbers, every size", "why_tests_cant": "requires the order of deactivation to be right for all condition graphs", "anchors": ["src/ConfigSpace/configuration_space.py: sample_configuration", "src/ConfigSpace/_condition_tree.py: DAG.minimum_conditions"]}
{"id": "C24", "title": "Sampling returns exactly the requested number", "statement": "When sample_configuration(size=n) terminates, it returns n configurations (a single one for n = 1 or None, none for n < 1).", "quantifier": "every space, random stream and size for which the loop stops", "why_tests_cant": "the rejection loop resizes its batches from the accepted count, for all acceptance patterns", "anchors": ["src/ConfigSpace/configuration_space.py: sample_configuration"]}
{"id": "C25", "title": "One-exchange neighbours are valid, allowed and differ", "statement": "Each configuration yielded by get_one_exchange_neighbourhood(valid config) is valid, violates no forbidden clause, and differs from the original in one active hyperparameter and otherwise only in hyperparameters whose activity depends on it.", "quantifier": "every space, valid configuration, random stream", "why_tests_cant": "iterator with retries driven by random numbers over all graphs", "anchors": ["src/ConfigSpace/util.py: get_one_exchange_neighbourhood, change_hp_value", "src/ConfigSpace/_condition_tree.py: DAG.forbidden_lookup"]}
{"id": "C26", "title": "Changing a value only touches dependants", "statement": "change_hp_value changes only the given hyperparameter and hyperparameters that depend on it through conditions; everything else keeps its value.", "quantifier": "every space, vector, hyperparameter and new value", "why_tests_cant": "all graphs and vectors", "anchors": ["src/ConfigSpace/util.py: change_hp_value", "src/ConfigSpace/_condition_tree.py: DAG.change_hp_lookup"]}
{"id": "C27", "title": "Fast and rigorous validity checks agree", "statement": "check_configuration and _check_configuration_rigorous accept the same vectors.", "quantifier": "every space and vector", "why_tests_cant": "two independent implementations on all vectors", "anchors": ["src/ConfigSpace/util.py: check_configuration", "src/ConfigSpace/configuration_space.py: _check_configuration_rigorous, get_active_hyperparameters"]}
{"id": "C28", "title": "get_active_hyperparameters returns the active set", "statement": "For a valid configuration, get_active_hyperparameters returns exactly the names that have a value.", "quantifier": "every space, every valid configuration", "why_tests_cant": "all spaces and configurations", "anchors": ["src/ConfigSpace/configuration_space.py: get_active_hyperparameters"]}
{"id": "C29", "title": "generate_grid yields only valid configurations", "statement": "Every configuration returned by generate_grid is valid and every numeric value lies on the requested grid.", "quantifier": "every space and steps dictionary for which it returns", "why_tests_cant": "work list algorithm over unbounded grids", "anchors": ["src/ConfigSpace/util.py: generate_grid"]}
{"id": "C30", "title": "generate_grid is complete", "statement": "Every valid configuration whose values all lie on the requested grid is returned by generate_grid, and it terminates.", "quantifier": "every space and grid", "why_tests_cant": "completeness over unbounded grids", "anchors": ["src/ConfigSpace/util.py: generate_grid"]}
{"id": "C31", "title": "estimate_size bounds the number of configurations", "statement": "For a space of finite hyperparameters, any list of pairwise different valid configurations has at most estimate_size() elements, with equality when there are no conditions or forbidden clauses.", "quantifier": "every finite space", "why_tests_cant": "counting over all spaces", "anchors": ["src/ConfigSpace/configuration_space.py: estimate_size"]}
{"id": "C32", "title": "impute_inactive_values fills every hyperparameter", "statement": "With strategy 'default' the result, when the call returns, has a value for every hyperparameter, equal to the original one where it was set and to the default elsewhere.", "quantifier": "every space and configuration", "why_tests_cant": "all configurations", "anchors": ["src/ConfigSpace/util.py: impute_inactive_values"]}
{"id": "C33", "title": "deactivate_inactive_hyperparameters keeps active values", "statement": "If it returns, the result is a valid configuration whose values are those of the input restricted to its active hyperparameters.", "quantifier": "every space and dictionary", "why_tests_cant": "work list over all graphs", "anchors": ["src/ConfigSpace/util.py: deactivate_inactive_hyperparameters"]}
{"id": "C34", "title": "Categorical, ordinal and constant values survive the vector round trip", "statement": "to_value(to_vector(v)) = v for every legal value and to_vector(to_value(x)) = x for every legal (integral) vector entry; distinct legal values have distinct vectors; for ordinals to_vector is strictly increasing along the sequence.", "quantifier": "every sequence of distinct values, every value and index", "why_tests_cant": "all sequences", "anchors": ["src/ConfigSpace/hyperparameters/hp_components.py: TransformerSeq, TransformerConstant"]}
{"id": "C35", "title": "Integers survive the vector round trip", "statement": "For a linear integer hyperparameter, to_value(to_vector(z)) = z for every legal integer z, to_vector(z) lies in [0, 1] and is a legal vector entry, and to_vector is strictly increasing.", "quantifier": "every pair of bounds lower < upper, every integer between them (exact arithmetic)", "why_tests_cant": "all bounds and integers", "anchors": ["src/ConfigSpace/hyperparameters/hp_components.py: UnitScaler", "src/ConfigSpace/hyperparameters/uniform_integer.py: UniformIntegerHyperparameter"]}
{"id": "C36", "title": "Floats survive the vector round trip", "statement": "For float hyperparameters (linear, or logarithmic with any strictly increasing log/exp pair) to_value(to_vector(x)) = x for every legal x and to_vector maps [lower, upper] onto [0, 1] monotonically.", "quantifier": "every pair of bounds, every legal value (exact arithmetic)", "why_tests_cant": "all bounds and values", "anchors": ["src/ConfigSpace/hyperparameters/hp_components.py: UnitScaler", "src/ConfigSpace/functional.py: scale, normalize, rescale"]}
{"id": "C37", "title": "Constructed hyperparameters have legal defaults and non-empty domains", "statement": "If a constructor returns, then the default value is legal, lower < upper (0 < lower if log), choices are pairwise different and non-empty, and the default lies in the value range after rounding.", "quantifier": "every constructor call", "why_tests_cant": "all arguments", "anchors": ["src/ConfigSpace/hyperparameters/hyperparameter.py: Hyperparameter.__init__", "src/ConfigSpace/hyperparameters/uniform_integer.py", "src/ConfigSpace/hyperparameters/uniform_float.py", "src/ConfigSpace/hyperparameters/categorical.py", "src/ConfigSpace/hyperparameters/ordinal.py", "src/ConfigSpace/hyperparameters/hp_components.py: UnitScaler.__post_init__"]}
{"id": "C38", "title": "Legal values become legal vectors", "statement": "If legal_value(v) holds then legal_vector(to_vector(v)) holds, and if legal_vector(x) holds then legal_value(to_value(x)) holds.", "quantifier": "every hyperparameter and value", "why_tests_cant": "all hyperparameters and values", "anchors": ["src/ConfigSpace/hyperparameters/hp_components.py: legal_value_single, legal_vector_single, to_value, to_vector"]}
{"id": "C39", "title": "Only integers are legal for integer hyperparameters", "statement": "legal_value(v) for an integer hyperparameter implies that v is an integer (up to the documented absolute tolerance 1e-13).", "quantifier": "every bounds pair and number", "why_tests_cant": "all numbers", "anchors": ["src/ConfigSpace/functional.py: is_close_to_integer, is_close_to_integer_single", "src/ConfigSpace/hyperparameters/hp_components.py: UnitScaler.legal_value"]}
{"id": "C40", "title": "Scalar and array legality checks agree", "statement": "legal_vector(x) on a number equals legal_vector on an array containing x, elementwise; likewise legal_value.", "quantifier": "every hyperparameter and number", "why_tests_cant": "two implementations on all numbers", "anchors": ["src/ConfigSpace/hyperparameters/hp_components.py: UnitScaler.legal_vector, legal_vector_single, legal_value, legal_value_single, TransformerSeq.legal_vector, legal_vector_single"]}
{"id": "C41", "title": "Sampled vector entries are legal", "statement": "Every entry drawn for a hyperparameter is a legal vector entry for it.", "quantifier": "every hyperparameter, every raw random number in the range the generator documents", "why_tests_cant": "all random streams", "anchors": ["src/ConfigSpace/hyperparameters/distributions.py: sample_vector"]}
{"id": "C42", "title": "quantize lands on bins, is monotone and idempotent", "statement": "quantize maps every number of the range to one of the `bins` equally spaced points including both ends, is monotone, maps each of these points to itself, and moves a number of the range by at most one bin width.", "quantifier": "all bounds, bins >= 2, all numbers of the range", "why_tests_cant": "all rationals", "anchors": ["src/ConfigSpace/functional.py: quantize"]}
{"id": "C43", "title": "Integer neighbours are legal, distinct, exclude the centre, and n in number", "statement": "neighbors_vectorized of a uniform integer returns min(n, size - 1) pairwise different legal entries different from the centre, whenever it returns.", "quantifier": "every size >= 2, centre, n, random stream", "why_tests_cant": "rejection sampling with buffers over all random streams", "anchors": ["src/ConfigSpace/hyperparameters/distributions.py: quantized_neighborhood, UniformIntegerNormalizedDistribution.neighborhood"]}
{"id": "C44", "title": "Neighbours of normal and beta integers are legal and distinct", "statement": "neighbors_vectorized of a (non-log) normal or beta integer with n >= size - 1 returns exactly the other size - 1 legal entries.", "quantifier": "every size and centre", "why_tests_cant": "all sizes and centres", "anchors": ["src/ConfigSpace/hyperparameters/distributions.py: DiscretizedContinuousScipyDistribution.neighborhood"]}
{"id": "C45", "title": "Ordinal neighbours are the adjacent elements", "statement": "The neighbours of an ordinal entry are exactly the entries one position away, never the entry itself, and get_num_neighbors reports their number.", "quantifier": "every sequence length, position, n, random choice", "why_tests_cant": "all lengths", "anchors": ["src/ConfigSpace/hyperparameters/hp_components.py: ordinal_neighborhood", "src/ConfigSpace/hyperparameters/ordinal.py: _ordinal_neighborhood_size"]}
{"id": "C46", "title": "Categorical neighbours are all other choices", "statement": "The neighbours of a categorical entry are pairwise different entries of other choices; all of them if n >= size - 1, and never more than n.", "quantifier": "every size, position, n, shuffle", "why_tests_cant": "all sizes and permutations", "anchors": ["src/ConfigSpace/hyperparameters/categorical.py: NeighborhoodCat.__call__"]}
{"id": "C47", "title": "Probabilities sum to one and max density is attained", "statement": "The densities of all legal values of a finite hyperparameter sum to one, are zero for illegal entries, never exceed get_max_density and reach it.", "quantifier": "every finite hyperparameter", "why_tests_cant": "all sizes and weights", "anchors": ["src/ConfigSpace/hyperparameters/distributions.py: pdf_vector, max_density, _max_density_and_normalization_constant", "src/ConfigSpace/hyperparameters/categorical.py"]}
{"id": "C48", "title": "center_range enumerates the range outwards without the centre", "statement": "center_range(c, lo, hi, step) yields exactly the integers of [lo, hi] that differ from c by a non-zero multiple of step, each once, in order of non-decreasing distance while both sides last.", "quantifier": "all integers lo <= c <= hi, step >= 1", "why_tests_cant": "all ranges", "anchors": ["src/ConfigSpace/functional.py: center_range"]}
{"id": "C49", "title": "Chunked ranges concatenate to the unchunked range", "statement": "The concatenation of arange_chunked(start, stop, step, chunk_size) equals arange(start, stop, step), and every chunk has at most chunk_size elements; linspace_chunked concatenates to linspace; split_arange is the range without the pivot.", "quantifier": "all starts, stops, steps, chunk sizes", "why_tests_cant": "all integer parameters", "anchors": ["src/ConfigSpace/functional.py: arange_chunked, linspace_chunked, split_arange"]}
{"id": "C50", "title": "Hyperparameters survive the dictionary round trip", "statement": "Encoding a hyperparameter with the default encoders and decoding it gives an equal hyperparameter.", "quantifier": "every constructible hyperparameter", "why_tests_cant": "all hyperparameters", "anchors": ["src/ConfigSpace/read_and_write/dictionary.py: HYPERPARAMETER_ENCODERS, HYPERPARAMETER_DECODERS"]}
{"id": "C51", "title": "Conditions and forbidden clauses survive the dictionary round trip", "statement": "Encoding a condition or forbidden tree of a space and decoding it against the decoded space gives an equal tree with the same truth value on every vector.", "quantifier": "every tree", "why_tests_cant": "unbounded trees", "anchors": ["src/ConfigSpace/read_and_write/dictionary.py: CONDITION_ENCODERS, CONDITION_DECODERS, FORBIDDEN_ENCODERS, FORBIDDEN_DECODERS"]}
{"id": "C52", "title": "Spaces survive the dictionary round trip", "statement": "from_serialized_dict(space.to_serialized_dict()) equals space.", "quantifier": "every space built by successful add() calls", "why_tests_cant": "all histories", "anchors": ["src/ConfigSpace/configuration_space.py: to_serialized_dict, from_serialized_dict, __eq__"]}
{"id": "C53", "title": "Deserialising does not modify its input", "statement": "from_serialized_dict(d) leaves d unchanged, so decoding it a second time gives the same space.", "quantifier": "every dictionary", "why_tests_cant": "all dictionaries", "anchors": ["src/ConfigSpace/configuration_space.py: from_serialized_dict"]}
{"id": "C54", "title": "Adding a sub-space keeps it isomorphic and leaves the source untouched", "statement": "add_configuration_space(prefix, other) adds renamed copies of other's hyperparameters, conditions and clauses with pairwise different names, the renaming preserves all conditions and clauses, and other is unchanged.", "quantifier": "every pair of spaces, prefix and delimiter", "why_tests_cant": "all names (including names equal to or starting with the prefix)", "anchors": ["src/ConfigSpace/configuration_space.py: add_configuration_space"]}
{"id": "C55", "title": "Removing priors keeps the structure", "statement": "remove_hyperparameter_priors() returns a space with the same names, ranges, defaults, and conditions and forbidden clauses with the same truth values as the original.", "quantifier": "every space", "why_tests_cant": "all condition trees, nested conjunctions included", "anchors": ["src/ConfigSpace/configuration_space.py: remove_hyperparameter_priors, substitute_hyperparameters_in_conditions, substitute_hyperparameters_in_forbiddens"]}
{"id": "C56", "title": "A configuration is a mapping: len counts its keys", "statement": "len(config) is the number of keys iterated, k in config iff iteration yields k, and config[k] raises KeyError otherwise.", "quantifier": "every configuration", "why_tests_cant": "all configurations", "anchors": ["src/ConfigSpace/configuration.py: __len__, __iter__, __contains__, __getitem__"]}
{"id": "C57", "title": "Equality of conditions is an equivalence and implies the same truth value", "statement": "Condition and conjunction equality is reflexive, symmetric and transitive, and equal conditions have the same truth value on every vector.", "quantifier": "all condition trees", "why_tests_cant": "unbounded trees; conjunction equality ignores order", "anchors": ["src/ConfigSpace/conditions.py: Condition.__eq__, Conjunction.__eq__"]}
{"id": "C58", "title": "conditions lists every declared condition", "statement": "space.conditions contains the condition of every conditional hyperparameter.", "quantifier": "every history of successful add() calls", "why_tests_cant": "deduplication is by printed representation, over all names", "anchors": ["src/ConfigSpace/_condition_tree.py: DAG.update", "src/ConfigSpace/configuration_space.py: conditions"]}
{"id": "C59", "title": "A clause object may be used in two spaces", "statement": "Adding a condition or forbidden object that already belongs to one space to another space does not change how the first space evaluates configurations.", "quantifier": "every pair of spaces sharing clause objects", "why_tests_cant": "aliasing over all histories", "anchors": ["src/ConfigSpace/conditions.py: set_vector_idx", "src/ConfigSpace/forbidden.py: set_vector_idx", "src/ConfigSpace/_condition_tree.py: DAG.update"]}
{"id": "C60", "title": "fix_types recovers the typed value from its text", "statement": "For every legal configuration whose values were replaced by their printed form, fix_types restores the original values, provided the printed forms of the candidates are distinct.", "quantifier": "every space of categorical, ordinal, constant, uniform integer hyperparameters, every configuration", "why_tests_cant": "all values", "anchors": ["src/ConfigSpace/util.py: fix_types"]}
{"id": "C61", "title": "A constructed hyperparameter has what its constructor was given", "statement": "Whenever one of the nine constructors returns an object, the object has the given name and meta, the given choices/sequence/value and weights, the given scale, the given bounds (nearest integers for integer types, up to half a unit of the 13th decimal for float types) and, if a default was given, that default (itself, its nearest integer, or up to half a unit of the 13th decimal). Without a given default: the first choice, a choice of maximal weight, the first of the sequence, the middle of a linear uniform range, or mu for a normal one.", "quantifier": "all argument tuples for which construction succeeds", "why_tests_cant": "bounds, defaults and lists range over unbounded sets; rounding effects show only at particular magnitudes", "anchors": ["src/ConfigSpace/hyperparameters/uniform_integer.py: __init__", "src/ConfigSpace/hyperparameters/uniform_float.py: __init__", "src/ConfigSpace/hyperparameters/normal_integer.py: __init__", "src/ConfigSpace/hyperparameters/normal_float.py: __init__", "src/ConfigSpace/hyperparameters/beta_integer.py: __init__", "src/ConfigSpace/hyperparameters/beta_float.py: __init__", "src/ConfigSpace/hyperparameters/categorical.py: __init__", "src/ConfigSpace/hyperparameters/ordinal.py: __init__", "src/ConfigSpace/hyperparameters/constant.py: __init__"]}
{"id": "C62", "title": "Float neighbours are legal and n in number", "statement": "neighbors_vectorized of a float hyperparameter returns exactly n entries, each legal and the entry of a legal value, whenever it returns; and it returns as soon as n of the proposed numbers lie in the unit interval.", "quantifier": "every float hyperparameter (uniform, normal, beta, linear or log scale), every legal centre, n, std and random stream", "why_tests_cant": "the proposals are random and rejected ones depend on how close the centre is to a bound; tests see a few seeds", "anchors": ["src/ConfigSpace/hyperparameters/distributions.py: continuous_neighborhood", "src/ConfigSpace/hyperparameters/hyperparameter.py: neighbors_vectorized"]}
{"id": "C63", "title": "get_num_neighbors counts the other values", "statement": "get_num_neighbors of a legal value is size - 1 for integer and categorical hyperparameters and 0 for constants, infinity for floats, the size without a value; for uniform integers it equals the number of neighbours returned when at least that many are requested.", "quantifier": "every constructible hyperparameter and legal value", "why_tests_cant": "ranges and values are unbounded; agreement with the neighbour generator holds for all random streams", "anchors": ["src/ConfigSpace/hyperparameters/hyperparameter.py: get_num_neighbors", "src/ConfigSpace/hyperparameters/hyperparameter.py: _integer_neighborhood_size"]}
{"id": "C64", "title": "The one-exchange neighbourhood ends", "statement": "get_one_exchange_neighbourhood yields finitely many configurations: for each hyperparameter at most num_neighbors (numbers), size - 1 (categorical) or 2 (ordinal), and, provided random indices come up again and again, it ends, whatever the clauses; if the single neighbourhoods find their numbers it ends without an exception.", "quantifier": "every space, valid configuration, number of neighbours and fair random stream", "why_tests_cant": "the generator loops until randomly picked entries are used up; a test can neither exclude endless loops nor exceptions for other streams", "anchors": ["src/ConfigSpace/util.py: get_one_exchange_neighbourhood"]}
{"id": "C65", "title": "The one-exchange neighbourhood enumerates discrete neighbours once", "statement": "Run to its end, get_one_exchange_neighbourhood yields, for each active categorical, ordinal or integer hyperparameter and each neighbour value (another choice, the previous or next of the sequence, another integer) whose change violates no clause, the changed configuration exactly once.", "quantifier": "every space, valid configuration and random stream", "why_tests_cant": "completeness and absence of repetitions over all random streams and clause sets", "anchors": ["src/ConfigSpace/util.py: get_one_exchange_neighbourhood"]}
{"id": "C66", "title": "get_random_neighbor changes one active hyperparameter to a neighbour", "statement": "A configuration returned by get_random_neighbor differs from the given one in exactly one active hyperparameter, whose new value is one of its neighbours, and is accepted by the space. The function raises NoPossibleNeighborsError for a space of at most one configuration, ValueError if no active hyperparameter has a second value, and nothing else.", "quantifier": "every space, valid configuration and random stream", "why_tests_cant": "a test fixes a seed; the claim is about every stream, every condition structure and every rejected proposal before the returned one", "anchors": ["src/ConfigSpace/util.py: get_random_neighbor"]}
{"id": "C67", "title": "get_random_neighbor ends", "statement": "get_random_neighbor returns or raises after finitely many steps; as its documentation says, ValueError is raised after too many rejected proposals.", "quantifier": "every space, valid configuration and random stream", "why_tests_cant": "an endless loop is not observable by a finite test", "anchors": ["src/ConfigSpace/util.py: get_random_neighbor"]}
{"id": "C68", "title": "The exception tells what is wrong", "statement": "If a configuration, a dictionary or an assignment is refused, the class of the exception is true: ActiveHyperparameterNotSetError only if an active hyperparameter has no value, InactiveHyperparameterSetError only if an inactive one has a value and that is not allowed, ForbiddenValueError only if the activity is right and a clause is violated, IllegalValueError only if a given value is illegal, ValueError only for an unknown name. With inactive values allowed, a dictionary is accepted exactly if names and values are right, every active hyperparameter has a value and no clause is violated.", "quantifier": "every space built by add, every dictionary, every stored vector, every assignment", "why_tests_cant": "tests compare the exception in a handful of broken configurations", "anchors": ["src/ConfigSpace/configuration_space.py: ConfigurationSpace.check_configuration", "src/ConfigSpace/configuration.py: Configuration.__init__", "src/ConfigSpace/configuration.py: Configuration.__setitem__"]}
{"id": "C69", "title": "deactivate_inactive_hyperparameters repairs every repairable input", "statement": "deactivate_inactive_hyperparameters always ends. Given a dictionary (or vector) that is accepted with inactive values allowed, it returns a configuration; otherwise it raises what the acceptance raised. If both are given only the dictionary is used.", "quantifier": "every space, dictionary and vector", "why_tests_cant": "work list over all condition graphs; the given values may have any gaps", "anchors": ["src/ConfigSpace/util.py: deactivate_inactive_hyperparameters"]}
{"id": "C70", "title": "generate_grid raises only documented errors", "statement": "generate_grid raises only if a hyperparameter is of a kind it does not support or a numerical hyperparameter has no positive number of steps; it never fails on its own intermediate configurations.", "quantifier": "every space and steps dictionary", "why_tests_cant": "which partial configurations arise depends on the whole condition graph and on rounding of every grid point", "anchors": ["src/ConfigSpace/util.py: generate_grid"]}
{"id": "C71", "title": "generate_grid returns each configuration once", "statement": "No two configurations returned by generate_grid have the same values.", "quantifier": "every space and steps dictionary for which it returns", "why_tests_cant": "work list algorithm over unbounded grids", "anchors": ["src/ConfigSpace/util.py: generate_grid"]}
{"id": "C72", "title": "fix_types replaces each value by the value it stands for", "statement": "fix_types replaces the value of every hyperparameter by the only candidate printed like it, or by its float or integer, and keeps all other entries and their order. It raises exactly if some value stands for nothing, ValueError for supported hyperparameters and TypeError for the others, and then leaves the dictionary alone. A second call changes nothing.", "quantifier": "every space, dictionary, and behaviour of str, int and float", "why_tests_cant": "all dictionaries and all texts", "anchors": ["src/ConfigSpace/util.py: fix_types"]}
{"id": "C73", "title": "add() accepts exactly the consistent declarations", "statement": "add() succeeds exactly if all names differ, no hyperparameter gets two different conditions, the conditions form no cycle and the default assignment violates no clause. Otherwise it raises HyperparameterAlreadyExistsError, AmbiguousConditionError, CyclicDependancyError or ForbiddenValueError, each only for its reason.", "quantifier": "every space and everything added to it", "why_tests_cant": "all declarations and histories", "anchors": ["src/ConfigSpace/configuration_space.py: add, _check_default_configuration", "src/ConfigSpace/_condition_tree.py: DAG.add, add_condition, add_forbidden, update"]}
{"id": "C74", "title": "Equality of forbidden clauses is an equivalence and equal clauses forbid the same", "statement": "== on clauses is reflexive, symmetric and transitive, and two equal clauses are true of the same values and of the same vectors.", "quantifier": "every clause, nested to any depth, and every assignment or vector", "why_tests_cant": "all clauses and assignments", "anchors": ["src/ConfigSpace/forbidden.py: __eq__ of ForbiddenEqualsClause, ForbiddenInClause, ForbiddenRelation, ForbiddenAndConjunction"]}
{"id": "C75", "title": "Equality of spaces is an equivalence and equal spaces allow the same", "statement": "== on spaces is reflexive, symmetric and transitive. Equal spaces list the same names in the same order, have equal hyperparameters, conditions and clauses, allow the same assignments and read vectors alike.", "quantifier": "every pair of spaces, however built", "why_tests_cant": "all spaces and histories", "anchors": ["src/ConfigSpace/configuration_space.py: __eq__", "src/ConfigSpace/_condition_tree.py: DAG, HPNode"]}
{"id": "C76", "title": "Equality of configurations agrees with their values and with their hash", "statement": "Two configurations are equal exactly if their spaces are equal and they show equal values; this is an equivalence, and equal configurations have the same hash.", "quantifier": "every pair of configurations", "why_tests_cant": "all configurations and ways to make them", "anchors": ["src/ConfigSpace/configuration.py: __eq__, __hash__, __str__"]}
{"id": "C77", "title": "Constructors accept exactly the proper arguments", "statement": "Each hyperparameter constructor returns exactly when its bounds enclose more than one value (positive on a log scale) after rounding, choices are non-empty and pairwise different, weights are non-negative and not all zero, distribution parameters are in range and a given default is one of the values; otherwise it raises ValueError (TypeError for a default of an integer hyperparameter that is not close to an integer).", "quantifier": "every combination of arguments of the nine constructors", "why_tests_cant": "all real bounds, defaults, weights and choices", "anchors": ["src/ConfigSpace/hyperparameters/*.py: __init__"]}
{"id": "C78", "title": "ConfigurationSpace(space={...}) gives the hyperparameters the dictionary describes", "statement": "A pair is a range of floats or integers, a list a categorical, a hyperparameter itself and anything else a constant, under the name of the key; the call succeeds exactly when every entry is well formed and the names differ, the space has these hyperparameters only, and every choice of legal values is a configuration.", "quantifier": "every dictionary and every assignment", "why_tests_cant": "all dictionaries", "anchors": ["src/ConfigSpace/configuration_space.py: _parse_hyperparameters_from_dict, ConfigurationSpace.__init__"]}
{"id": "C79", "title": "to_integer keeps the integers of a float hyperparameter", "statement": "For a float hyperparameter whose range has at least two integers, to_integer returns an integer hyperparameter of the same name, scale, distribution and meta data whose values are exactly the integers of the range and whose default is the nearest integer to the default.", "quantifier": "every float hyperparameter, uniform, normal or beta", "why_tests_cant": "all bounds and defaults", "anchors": ["src/ConfigSpace/hyperparameters/uniform_float.py: to_integer", "src/ConfigSpace/hyperparameters/normal_float.py: to_integer", "src/ConfigSpace/hyperparameters/beta_float.py: to_integer"]}
{"id": "C80", "title": "Integer, Float and Categorical give what was asked for", "statement": "Integer(...), Float(...) and Categorical(...) return a hyperparameter of the requested type with the requested name, bounds or items, default, distribution, scale, weights and meta data, and return exactly for proper arguments; weights of an ordered Categorical and missing bounds are rejected.", "quantifier": "every combination of arguments", "why_tests_cant": "all arguments", "anchors": ["src/ConfigSpace/api/types/integer.py", "src/ConfigSpace/api/types/float.py", "src/ConfigSpace/api/types/categorical.py"]}
{"id": "C81", "title": "Reading a density changes nothing", "statement": "get_max_density, pdf_vector and pdf_values return the same whatever was read before, and calling them does not change which hyperparameters are equal.", "quantifier": "every hyperparameter and every sequence of reads", "why_tests_cant": "all sequences of reads", "anchors": ["src/ConfigSpace/hyperparameters/distributions.py: DiscretizedContinuousScipyDistribution.__eq__, max_density, _pdf_normalization_constant"]}
{"id": "C82", "title": "copy(**kwargs) returns an updated copy", "statement": "Hyperparameter.copy(name=value, ...) returns a hyperparameter with these attributes changed and the others kept.", "quantifier": "every hyperparameter and all keyword arguments", "why_tests_cant": "all classes and keyword arguments; the method has no test", "anchors": ["src/ConfigSpace/hyperparameters/hyperparameter.py: copy"]}
{"id": "C83", "title": "A space written in the newer PCS format comes back", "statement": "pcs_new.read of the lines of pcs_new.write(space) returns a space with the same hyperparameters at the same places, the same conditions and the same accepted values.", "quantifier": "every space", "why_tests_cant": "all spaces, names, values, conditions and clauses", "anchors": ["src/ConfigSpace/read_and_write/pcs_new.py: read, write, build_*, condition_specification, pp_*"]}
{"id": "C84", "title": "pcs_new.write raises exactly for what it does not support", "statement": "write returns a text exactly when every name begins with a character of a name, no categorical has weights, no conjunction of conditions contains a conjunction, and no clause needs a relation; otherwise it raises ValueError (names, weights), NotImplementedError (nested conjunctions, relations inside conjunctions) or TypeError (a relation as a clause).", "quantifier": "every space that can be built", "why_tests_cant": "all spaces", "anchors": ["src/ConfigSpace/read_and_write/pcs_new.py: write, build_conjunction, build_forbidden"]}
{"id": "C85", "title": "Comments and newlines do not change what pcs_new.read returns", "statement": "Reading an open file gives the same as reading the lines of its text, and everything from a # to the end of a line is ignored.", "quantifier": "every text", "why_tests_cant": "all texts", "anchors": ["src/ConfigSpace/read_and_write/pcs_new.py: read"]}
{"id": "C86", "title": "pcs_new.read of a string raises", "statement": "read iterates over its argument, so a string is read character by character: it raises NotImplementedError when the string has a |, a } or a ], and gives an empty space otherwise.", "quantifier": "every string", "why_tests_cant": "all strings", "anchors": ["src/ConfigSpace/read_and_write/pcs_new.py: read"]}
{"id": "C87", "title": "A space written in the older PCS format comes back", "statement": "pcs.read of the lines of pcs.write(space) returns a space with the same hyperparameters at the same places, the same conditions and the same accepted values.", "quantifier": "every space", "why_tests_cant": "all spaces, names, values, conditions and clauses", "anchors": ["src/ConfigSpace/read_and_write/pcs.py: read, write, build_*, condition_specification, pp_*"]}
{"id": "C88", "title": "pcs.write raises exactly for what it does not support", "statement": "write returns a text exactly when every name begins with a character of a name, no categorical has weights, no hyperparameter is ordinal, every condition is made of equalities and memberships in strings joined by conjunctions, and no clause needs a relation; otherwise it raises ValueError (names, weights), TypeError (ordinals, memberships in something else than strings), NotImplementedError (disjunctions, other comparisons, a relation as a clause) or AssertionError (a relation inside a conjunction).", "quantifier": "every space that can be built", "why_tests_cant": "all spaces", "anchors": ["src/ConfigSpace/read_and_write/pcs.py: write, build_condition, build_forbidden"]}
{"id": "C89", "title": "Reading PCS depends only on the lines of each kind", "statement": "Both readers return the same space for two sequences of lines that have the same hyperparameter lines, the same condition lines and the same clause lines, each in the same order, however these are interleaved and whatever blank lines and comments are between them; pcs.read of an open file is that of the lines of its text.", "quantifier": "every text", "why_tests_cant": "all texts and all interleavings", "anchors": ["src/ConfigSpace/read_and_write/pcs.py: read", "src/ConfigSpace/read_and_write/pcs_new.py: read"]}
{"id": "C90", "title": "add takes its arguments in any grouping", "statement": "space.add(*args) does what adding the hyperparameters, conditions and clauses found in args does, each kind in the order in which it occurs, however deep they are nested in iterables and however the kinds are mixed; if an argument is neither one of these nor an iterable, add raises TypeError (or what iterating raises) before the space changes.", "quantifier": "every space and every nesting of arguments", "why_tests_cant": "all nestings and interleavings", "anchors": ["src/ConfigSpace/configuration_space.py: ConfigurationSpace.add"]}
{"id": "C91", "title": "generate_all_continuous_from_bounds makes one float for each bound", "statement": "The space has exactly the hyperparameters x0, x1, ... , one uniform float for each pair of bounds with these bounds and the default in the middle, no conditions or clauses; it raises ValueError exactly when a pair is not a range.", "quantifier": "every list of bounds", "why_tests_cant": "all lists", "anchors": ["src/ConfigSpace/configuration_space.py: generate_all_continuous_from_bounds"]}
{"id": "C92", "title": "to_float keeps an integer hyperparameter", "statement": "to_float of an integer hyperparameter returns a float hyperparameter with the same name, bounds, scale, default, distribution and meta data, whose integer values are the same; to_integer of it gives the integer hyperparameter back.", "quantifier": "every integer hyperparameter that can be constructed", "why_tests_cant": "all bounds, scales and distributions", "anchors": ["src/ConfigSpace/hyperparameters/uniform_integer.py: to_float", "src/ConfigSpace/hyperparameters/normal_integer.py: to_float", "src/ConfigSpace/hyperparameters/beta_integer.py: to_float"]}
{"id": "C93", "title": "The order of an ordinal is that of its sequence", "statement": "get_order returns the position of a value, which is also its vector, and raises ValueError exactly for what is not a value; get_value is its inverse and raises IndexError outside the positions; check_order is a strict total order on the values, the one of the positions.", "quantifier": "every ordinal hyperparameter, every value and index", "why_tests_cant": "all sequences and values", "anchors": ["src/ConfigSpace/hyperparameters/ordinal.py: check_order, get_order, get_value, get_seq_order"]}
{"id": "C94", "title": "A space written to JSON is read back as its dictionary", "statement": "from_json of the text to_json writes, with any indent, is from_serialized_dict of to_serialized_dict; from_json gives the same for every JSON text of that dictionary, whatever its blanks, escapes and repeated keys; a text that is no JSON text raises ValueError.", "quantifier": "every space, every indent, every text", "why_tests_cant": "all strings in names and values, all nestings, all texts", "anchors": ["src/ConfigSpace/configuration_space.py: to_json, from_json", "src/ConfigSpace/read_and_write/json.py"]}
{"id": "C95", "title": "A list of values is treated element by element", "statement": "legal_value, to_vector and to_value of a list or array give for each element what they give for it alone; an array with one bad entry is refused.", "quantifier": "every hyperparameter, every list of values, every array of entries", "why_tests_cant": "all lists of values of mixed types, whose common type numpy chooses", "anchors": ["src/ConfigSpace/hyperparameters/hyperparameter.py: legal_value, to_vector, to_value", "src/ConfigSpace/hyperparameters/hp_components.py: TransformerSeq, UnitScaler, TransformerConstant"]}
{"id": "C96", "title": "Illegal values have density zero", "statement": "pdf_values gives the density of each value; it is zero for values that are not legal, and for a uniform float the inverse of the range for all others.", "quantifier": "every hyperparameter, every list of values, every density function", "why_tests_cant": "all numbers, legal and not, on linear and logarithmic scales", "anchors": ["src/ConfigSpace/hyperparameters/hyperparameter.py: pdf_values, pdf_vector"]}
{"id": "C97", "title": "Neighbours of a value are other legal values", "statement": "neighbors_values of a legal value gives, for uniform integers, min(n, size - 1) distinct other legal integers; for ordinals the adjacent elements; for categoricals distinct other choices; for floats n legal numbers; of an illegal value it raises.", "quantifier": "every hyperparameter, value, number n and all random numbers", "why_tests_cant": "random numbers and all ranges", "anchors": ["src/ConfigSpace/hyperparameters/hyperparameter.py: neighbors_values"]}
{"id": "C98", "title": "In float64 an integer comes back from its vector entry", "statement": "For an integer hyperparameter without log, to_value(to_vector(v)) is v in float64 arithmetic; entries lie in [0, 1], the bounds at its ends, in the order of the values, and different integers have different entries.", "quantifier": "every range within \u00b12^49 (2^52 for order and ends), every integer of it", "why_tests_cant": "2^50 ranges times 2^50 integers, each with its own rounding errors", "anchors": ["src/ConfigSpace/hyperparameters/hp_components.py: UnitScaler.to_vector, to_value", "src/ConfigSpace/hyperparameters/functional.py: scale, normalize"]}
{"id": "C99", "title": "In float64 every number of the unit interval decodes into the range", "statement": "to_value of a number in [0, 1] is a legal value although scaling rounds; entries of legal floats lie in [0, 1], those of the bounds at its ends; both directions keep the order.", "quantifier": "every range with bounds of at most 2^970 (integers: 2^52), every float64 in it and in [0, 1]", "why_tests_cant": "all float64 numbers", "anchors": ["src/ConfigSpace/hyperparameters/hp_components.py: UnitScaler.to_value, to_vector", "src/ConfigSpace/hyperparameters/uniform_float.py: __init__"]}
{"id": "C100", "title": "In float64 the entry of an integer passes the legality test of vectors and has density 1/size", "statement": "legal_vector accepts to_vector(v), for a single number and for an array, and pdf_values([v]) is 1/size.", "quantifier": "every integer range within \u00b12^34 (single number: 2^49), every integer of it", "why_tests_cant": "the test has an absolute and a relative tolerance; rounding errors depend on range and value", "anchors": ["src/ConfigSpace/hyperparameters/hp_components.py: UnitScaler.legal_vector, legal_vector_single", "src/ConfigSpace/hyperparameters/functional.py: is_close_to_integer", "src/ConfigSpace/hyperparameters/hyperparameter.py: pdf_values"]}
{"id": "C101", "title": "In float64 sampling and neighbours of integers are entries of integers", "statement": "sampling a uniform integer gives the entry of the drawn integer; every number of the unit interval drawn for a normal or beta integer on a linear scale becomes the entry of an integer of the range; quantizing the entry of an integer keeps it; the neighbours of an integer are min(n, size - 1) different integers of the range other than itself.", "quantifier": "every integer range (neighbours: up to 2^26 + 1 values), every value and all random numbers", "why_tests_cant": "floor(x * bins) is discontinuous exactly at entries; all ranges and random numbers", "anchors": ["src/ConfigSpace/hyperparameters/functional.py: quantize", "src/ConfigSpace/hyperparameters/distributions.py: quantized_neighborhood, sample_vector"]}
{"id": "C102", "title": "Rounding to 13 decimals in float64 happens once and respects the bounds", "statement": "np.round(np.round(x, 13), 13) == np.round(x, 13); a legal float is legal after rounding; what a configuration reads from its vector is legal, and storing it again does not change it.", "quantifier": "every float64 of at most 2^970 in absolute value", "why_tests_cant": "multiplication and division by 10 ** 13 round; a single counterexample among 2^64 numbers would do", "anchors": ["src/ConfigSpace/configuration.py: __init__, __getitem__", "src/ConfigSpace/hyperparameters/uniform_float.py: __init__", "src/ConfigSpace/hyperparameters/hp_components.py: ROUND_PLACES"]}
{"id": "C103", "title": "In float64 a stored float comes back from the vector", "statement": "The value that a configuration made from a vector reads for a float is the value stored in the configuration that the vector was taken from.", "quantifier": "every float range without log with bounds of at most 64 (128 if the lower bound is 0), every legal float", "why_tests_cant": "all float64 numbers of the range", "anchors": ["src/ConfigSpace/configuration.py: __init__, __getitem__, get_array", "src/ConfigSpace/hyperparameters/hp_components.py: UnitScaler.to_vector, to_value"]}
{"id": "C104", "title": "In float64 an integer on a logarithmic scale comes back from its vector entry", "statement": "For an integer hyperparameter with log, to_value(to_vector(v)) is v in float64 arithmetic and legal_vector accepts the entry; entries lie in [0, 1], the bounds at its ends, in the order of the values; every number of [0, 1] decodes into the range.", "quantifier": "every range of positive integers up to 2^42, every integer of it, every number in [0, 1], and all functions log and exp with a relative error of at most 2^-51", "why_tests_cant": "the results of log and exp depend on the platform; all ranges and values", "anchors": ["src/ConfigSpace/hyperparameters/hp_components.py: UnitScaler.to_vector, to_value, legal_vector, legal_vector_single", "src/ConfigSpace/hyperparameters/functional.py: scale, normalize"]}
{"id": "C105", "title": "In float64 a float on a logarithmic scale keeps bounds and order and comes back", "statement": "Entries of legal floats lie in [0, 1], the bounds at its ends, in the order of the values; every number of [0, 1] decodes into the range; the way into the vector and back has a small relative error, and after rounding to 13 decimals gives the stored value.", "quantifier": "every range between 2^-800 and 2^800 (exact return: bounds in (0, 1/2]), every legal float, and all functions log and exp with a relative error of at most 2^-51, log monotone", "why_tests_cant": "all float64 numbers; the results of log and exp depend on the platform", "anchors": ["src/ConfigSpace/hyperparameters/hp_components.py: UnitScaler.to_vector, to_value", "src/ConfigSpace/configuration.py: __init__, __getitem__"]}
{"id": "C106", "title": "In float64 a condition or clause on a number reads the same from the value and from the vector", "statement": "For a condition (==, !=, <, >, in) or a forbidden clause (equals, in) on a numerical hyperparameter, the test on the stored value and the test on the vector entry give the same answer, and a condition 'equal to c' holds of the configuration to which c was assigned.", "quantifier": "every range (integers within \u00b12^49, on log scales up to 2^42; floats with bounds up to 64), every value and every constant of the condition", "why_tests_cant": "two numbers may get one entry; depends on range and both numbers", "anchors": ["src/ConfigSpace/conditions.py: BinaryOpCondition.satisfied_by_value, satisfied_by_vector, InCondition", "src/ConfigSpace/forbidden.py: ForbiddenEqualsClause, ForbiddenInClause", "src/ConfigSpace/configuration.py: __init__"]}
{"id": "C107", "title": "In float64 a forbidden relation reads the same from the values and from the vector", "statement": "ForbiddenLessThanRelation, ForbiddenEqualsRelation and ForbiddenGreaterThanRelation forbid a configuration exactly if its values are in the relation, although the vector check compares decoded entries.", "quantifier": "every two ranges (integers within \u00b12^49; floats with bounds up to 64), every two values, also an integer and a float", "why_tests_cant": "decoded entries differ from the values in the last bits, depending on both ranges", "anchors": ["src/ConfigSpace/forbidden.py: ForbiddenRelation.is_forbidden_value, is_forbidden_vector"]}
{"id": "C108", "title": "Deprecated methods do what they tell to use instead", "statement": "hp.has_neighbors() is hp.size > 1; hp.get_neighbors gives what neighbors_vectorized gives (four unless told otherwise); space.check_configuration(c) accepts exactly what c.check_valid_configuration() accepts; check_forbidden(space.forbidden_clauses, v) agrees with the check of the space.", "quantifier": "every hyperparameter, space, configuration and vector", "why_tests_cant": "holds for all but rare hyperparameters and configurations", "anchors": ["src/ConfigSpace/hyperparameters/hyperparameter.py: has_neighbors, get_neighbors", "src/ConfigSpace/configuration_space.py: check_configuration", "src/ConfigSpace/c_util.py: check_forbidden"]}
{"id": "C109", "title": "Exactly the valid configurations can be sampled", "statement": "For every valid configuration there are random numbers for which sample_configuration returns it, and it returns nothing else; it raises nothing, and it stops if the draws are valid again and again.", "quantifier": "every space, valid configuration and random stream", "why_tests_cant": "a value that is never drawn does not show up in a sample, and termination is about infinite streams", "anchors": ["src/ConfigSpace/configuration_space.py: sample_configuration", "src/ConfigSpace/hyperparameters/hp_components.py", "src/ConfigSpace/hyperparameters/hyperparameter.py: sample_vector"]}
{"id": "C110", "title": "The density of a value is the probability with which it is sampled", "statement": "The density pdf_values reports for a value of a discrete hyperparameter is the share of the random numbers for which sample_value returns that value; for floats the share of an interval of values is density times its length.", "quantifier": "every hyperparameter, legal value and random number", "why_tests_cant": "a sample only estimates a probability, and the claim is about all random numbers", "anchors": ["src/ConfigSpace/hyperparameters/distributions.py: sample_vector, pdf_vector", "src/ConfigSpace/hyperparameters/hyperparameter.py: pdf_values", "src/ConfigSpace/hyperparameters/uniform_integer.py"]}
{"id": "C111", "title": "The vector bounds of a hyperparameter hold and are reached", "statement": "lower_vectorized and upper_vectorized of a hyperparameter bound the vector entries of its legal values, its legal vector entries and its samples, and both are entries of legal values.", "quantifier": "every hyperparameter, value, vector entry and random number", "why_tests_cant": "bounds are about all values, and the exceptions are values very close to an integer", "anchors": ["src/ConfigSpace/hyperparameters/hyperparameter.py: lower_vectorized, upper_vectorized", "src/ConfigSpace/hyperparameters/distributions.py", "src/ConfigSpace/hyperparameters/hp_components.py: legal_vector_single"]}
{"id": "C112", "title": "A normal hyperparameter has the same spread in vector space", "statement": "The distribution behind a normal hyperparameter, which lives in vector space, is limited to the vector bounds, is centred on the entry of mu, and its scale is the distance in vector space of values that differ by sigma, in whatever unit the values are given.", "quantifier": "every bounds, mu, sigma and scale", "why_tests_cant": "samples of a distribution hardly tell its scale, and only special bounds are tested", "anchors": ["src/ConfigSpace/hyperparameters/hp_components.py: vectorize_size", "src/ConfigSpace/hyperparameters/normal_float.py", "src/ConfigSpace/hyperparameters/normal_integer.py"]}
{"id": "C113", "title": "A choice that is a tuple or list is treated like any other choice", "statement": "For categorical and ordinal hyperparameters and constants with tuples or lists among their choices: accepted choices are different, legal_value answers True exactly for the choices, to_vector gives the index of a choice, to_value of that index gives the choice back, and the default is a choice.", "quantifier": "every list of choices, nested tuples and lists, and every value", "why_tests_cant": "the branches taken depend on whether the choices are hashable and on how numpy compares a number with a sequence; tests use a few tuples", "anchors": ["src/ConfigSpace/hyperparameters/categorical.py: __init__, to_vector, legal_value, pdf_values", "src/ConfigSpace/hyperparameters/ordinal.py", "src/ConfigSpace/hyperparameters/constant.py: legal_value", "src/ConfigSpace/hyperparameters/hp_components.py: TransformerSeq"]}
{"id": "C114", "title": "A list is not accepted as the value of a hyperparameter without such choices", "statement": "Giving a list as the value of a hyperparameter whose choices are no sequences raises.", "quantifier": "every hyperparameter and list", "why_tests_cant": "depends on the truth of arrays of every length", "anchors": ["src/ConfigSpace/configuration.py: __init__", "src/ConfigSpace/hyperparameters/hyperparameter.py: legal_value, to_vector"]}
{"id": "C115", "title": "Choices that are sequences survive JSON", "statement": "Writing a categorical hyperparameter with tuples or lists among its choices to JSON and reading it gives the same choices and default.", "quantifier": "every hyperparameter", "why_tests_cant": "JSON has no tuples; the loss shows only for some choices", "anchors": ["src/ConfigSpace/read_and_write/dictionary.py", "src/ConfigSpace/hyperparameters/categorical.py"]}
{"id": "C116", "title": "Assignments reach exactly the valid configurations", "statement": "From a valid configuration every other valid configuration is reached by assigning its values, parents first, each assignment succeeding; whatever is assigned, the configuration stays valid; assigning to an inactive hyperparameter raises and changes nothing.", "quantifier": "every space, pair of valid configurations and sequence of assignments", "why_tests_cant": "all sequences of assignments in all spaces", "anchors": ["src/ConfigSpace/configuration.py: __setitem__", "src/ConfigSpace/util.py: change_hp_value"]}
{"id": "C117", "title": "The order of assignments to different hyperparameters does not matter", "statement": "Two assignments to different hyperparameters give the same configuration in both orders; assigning the value a hyperparameter has changes nothing; of two assignments to one hyperparameter the last counts.", "quantifier": "every space, valid configuration and pair of assignments", "why_tests_cant": "depends on what is conditional on both hyperparameters", "anchors": ["src/ConfigSpace/configuration.py: __setitem__", "src/ConfigSpace/util.py: change_hp_value"]}
{"id": "C118", "title": "Local search over one-exchange neighbours reaches every configuration", "statement": "From a valid configuration a search that repeatedly moves to one of the configurations yielded by the one-exchange neighbourhood can reach every other valid configuration, whatever the random numbers, in at most as many moves as there are categorical and integer hyperparameters plus the steps of the ordinal ones.", "quantifier": "every space, pair of valid configurations and all random numbers in each run of the generator", "why_tests_cant": "chains of moves of any length, all random numbers, hyperparameters that switch on and off on the way", "anchors": ["src/ConfigSpace/util.py: get_one_exchange_neighbourhood", "src/ConfigSpace/util.py: change_hp_value"]}
{"id": "C119", "title": "The order in which a space is built does not matter", "statement": "Two spaces made from the same hyperparameters, conditions and clauses, added in any order and in any number of add() calls, give the same results: the same layout, views, default configuration, verdicts and exceptions of checks and constructors, reads and assignments, the same samples and neighbours for the same random numbers, the same text when written; and they are equal.", "quantifier": "every pair of histories of add() calls with the same contents, every configuration, vector, assignment and sequence of random numbers", "why_tests_cant": "all permutations and groupings of the additions of any space, and all later operations", "anchors": ["src/ConfigSpace/_condition_tree.py: DAG.update", "src/ConfigSpace/_condition_tree.py: DAG.add_condition", "src/ConfigSpace/configuration_space.py: ConfigurationSpace.add", "src/ConfigSpace/configuration_space.py: ConfigurationSpace.__eq__"]}
{"id": "C120", "title": "Reading a configuration leaves no trace", "statement": "Any sequence of config[key], key in config, iteration and dict(config), repeated in any order, answers each time what it would have answered first, including exceptions: the values that a configuration remembers cannot be observed.", "quantifier": "every space, configuration (also stale ones, whose space has changed), every sequence of reads", "why_tests_cant": "all orders and repetitions of reads of all configurations", "anchors": ["src/ConfigSpace/configuration.py: Configuration.__getitem__", "src/ConfigSpace/configuration.py: Configuration.__contains__", "src/ConfigSpace/configuration.py: Configuration.__iter__"]}
{"id": "C121", "title": "A configuration keeps its values when its space grows", "statement": "After a configuration was made, its space gets more hyperparameters, conditions or clauses: the keys of the configuration read as before, and the configuration does not have the new keys.", "quantifier": "every space, configuration of it and later successful add()", "why_tests_cant": "all later additions to a space, all configurations made before", "anchors": ["src/ConfigSpace/configuration.py: Configuration.__getitem__", "src/ConfigSpace/configuration.py: Configuration.__iter__", "src/ConfigSpace/configuration_space.py: ConfigurationSpace.add"]}
{"id": "C122", "title": "Configurations are independent of each other and of the arrays they were made from", "statement": "Any number of configurations are read and assigned to, in any order: each behaves as if it were the only one, even when several were made from one array; an assignment never writes into an array that existed before, and a configuration does not change when somebody writes into the array that it was made from or that get_array() returned.", "quantifier": "every space, every number of configurations and arrays, every interleaving of reads, assignments and writes to arrays", "why_tests_cant": "all interleavings of operations on several objects", "anchors": ["src/ConfigSpace/configuration.py: Configuration.__init__", "src/ConfigSpace/configuration.py: Configuration.__setitem__", "src/ConfigSpace/configuration.py: Configuration.get_array"]}
{"id": "C123", "title": "Calls of add() that raise do not disturb what is built afterwards", "statement": "When add() raises, the items before the one it refuses stay in the space, and after the next call that succeeds the space behaves in every respect as if just the accepted items had been added to it.", "quantifier": "every space, every number of failing calls with any arguments before the next successful one, every kind of failure", "why_tests_cant": "all positions of a failure inside a call, and all sequences of failing and successful calls", "anchors": ["src/ConfigSpace/configuration_space.py: ConfigurationSpace.add", "src/ConfigSpace/_condition_tree.py: DAG.update", "src/ConfigSpace/_condition_tree.py: DAG.add_condition"]}
{"id": "C124", "title": "What an addition to a space does to its configurations", "statement": "Adding forbidden clauses to a space takes away exactly the configurations they forbid and leaves the vectors, the default configuration and the active hyperparameters as they were; adding hyperparameters extends each configuration by all legal values of theirs; adding a condition takes away exactly the configurations that give its child a value although the condition does not hold.", "quantifier": "every space and every addition that add() accepts, all dictionaries of values and all vectors", "why_tests_cant": "all spaces, all additions and all configurations", "anchors": ["src/ConfigSpace/configuration_space.py: ConfigurationSpace.add", "src/ConfigSpace/configuration.py: Configuration.__init__", "src/ConfigSpace/util.py: check_configuration"]}
{"id": "C125", "title": "impute_inactive_values fills in and can be undone", "statement": "impute_inactive_values of a valid configuration returns one in which every hyperparameter has a value: the one it had, or the default or given number if it was inactive; deactivating the inactive hyperparameters of the result gives back the configuration.", "quantifier": "every space, every valid configuration, both strategies and every number", "why_tests_cant": "all spaces, configurations and numbers", "anchors": ["src/ConfigSpace/util.py: impute_inactive_values", "src/ConfigSpace/util.py: deactivate_inactive_hyperparameters", "src/ConfigSpace/configuration.py: Configuration.__init__"]}
{"id": "C126", "title": "Equality of hyperparameters is an equivalence and equal hyperparameters are interchangeable", "statement": "== between hyperparameters is reflexive, symmetric and transitive and holds exactly when name, default and domain (with probabilities, scale and distribution) agree; equal hyperparameters have the same legal values, the same vector for each value, the same density of each value and the same samples from the same random numbers.", "quantifier": "all pairs and triples of constructed hyperparameters, all values, vector entries and random numbers", "why_tests_cant": "all pairs of hyperparameters, all values", "anchors": ["src/ConfigSpace/hyperparameters/categorical.py: CategoricalHyperparameter.__eq__", "src/ConfigSpace/hyperparameters/hyperparameter.py: Hyperparameter (dataclass equality)"]}
{"id": "C127", "title": "Whatever dictionary is read, the result is a proper space, and older dictionaries are read like newer ones", "statement": "Every space that from_serialized_dict returns is one that add() could have built, and its conditions and clauses are about its own hyperparameters; the order of the keys does not matter; keys with a default may be left out; unknown keys, missing keys, unknown types and unknown hyperparameters are refused with a fixed exception; the keys that older versions wrote (default, q, probabilities, RELATION with lambda) are read like their replacements; writing what was read and reading it again gives the same dictionary and an equal space.", "quantifier": "all dictionaries, however nested and whether or not they were written by this library", "why_tests_cant": "all dictionaries", "anchors": ["src/ConfigSpace/configuration_space.py: from_serialized_dict", "src/ConfigSpace/read_and_write/dictionary.py: _backwards_compat", "src/ConfigSpace/read_and_write/dictionary.py: decoders"]}
{"id": "C128", "title": "Whatever text is read, in any of the three formats, the result is a proper space", "statement": "Every space that the PCS readers or from_json return is one that add() could have built, with conditions and clauses about its own hyperparameters; each hyperparameter line of a PCS text is one hyperparameter, each clause line one clause and (newer format) each condition line one condition; in the older format conditions and clauses only depend on categorical hyperparameters.", "quantifier": "all texts and lists of lines", "why_tests_cant": "all texts", "anchors": ["src/ConfigSpace/read_and_write/pcs_new.py: read", "src/ConfigSpace/read_and_write/pcs.py: read", "src/ConfigSpace/configuration_space.py: from_json"]}
{"id": "C129", "title": "to_dict describes a condition or a forbidden clause", "statement": "The dictionary that to_dict of a forbidden clause or condition returns can be read back as an item of a serialized space and gives the same clause or condition, and two clauses or conditions of a space with the same dictionary are the same.", "quantifier": "all spaces, all conditions and clauses of them however nested", "why_tests_cant": "all clauses and conditions", "anchors": ["src/ConfigSpace/conditions.py: to_dict", "src/ConfigSpace/forbidden.py: to_dict", "src/ConfigSpace/read_and_write/dictionary.py: _decode_relation_legacy"]}
{"id": "C130", "title": "Weights in double precision", "statement": "The probabilities that a categorical with weights computes in double precision lie in [0, 1] and add up to one, larger weights get no smaller probability, every choice that is drawn has a positive weight and is drawn as often as its share of the weights says, and without a default value a choice of the highest weight is the default.", "quantifier": "all lists of weights that are finite, up to a million of them, all orders in which np.sum adds them, all drawn numbers", "why_tests_cant": "all double precision numbers and all orders of summation", "anchors": ["src/ConfigSpace/hyperparameters/categorical.py: __init__", "src/ConfigSpace/hyperparameters/distributions.py: CategoricalDistribution"]}
{"id": "C131", "title": "A vector entry has the density of its value", "statement": "For every legal vector entry of a hyperparameter, pdf_vector of the entry and pdf_values of the value that to_value gives for it return the same density.", "quantifier": "all hyperparameters, all legal entries, not only those that to_vector returns", "why_tests_cant": "all legal entries of all hyperparameters", "anchors": ["src/ConfigSpace/hyperparameters/hyperparameter.py: pdf_vector, pdf_values", "src/ConfigSpace/hyperparameters/distributions.py: pdf_vector", "src/ConfigSpace/hyperparameters/hp_components.py: to_value"]}
{"id": "C132", "title": "A configuration is sampled with the product of the probabilities of its active values", "statement": "If the entries of the random columns are drawn independently, sample_configuration() returns each valid configuration with a probability proportional to the product of the probabilities (densities) of its active values: inactive hyperparameters and rejected columns do not distort the proportions.", "quantifier": "all spaces, all laws of the entries with finitely many outcomes, all valid configurations, any number of rounds", "why_tests_cant": "an exact statement about probabilities; tests can only compare frequencies of some spaces", "anchors": ["src/ConfigSpace/configuration_space.py: sample_configuration", "src/ConfigSpace/hyperparameters/distributions.py: sample_vector, pdf_vector"]}
{"id": "C133", "title": "Without weights and conditions sampling is uniform over the valid configurations", "statement": "In a space of unweighted choices, ordinals, constants and uniform integers, sample_configuration() returns any two valid configurations in which the same hyperparameters are active with the same probability; without conditions this means all valid configurations are equally likely, whatever is forbidden.", "quantifier": "all spaces of such hyperparameters, all pairs of valid configurations, any number of rounds", "why_tests_cant": "an exact statement about probabilities for all spaces", "anchors": ["src/ConfigSpace/configuration_space.py: sample_configuration", "src/ConfigSpace/hyperparameters/distributions.py: sample_vector"]}
{"id": "C134", "title": "In float64 sampling integers on a logarithmic scale gives entries that decode into the range, but conditions may miss them", "statement": "For an integer hyperparameter with log=True every number of the unit interval is sampled as a legal vector entry that decodes to an integer between the bounds, and the entry of an integer is sampled as that integer again. Conditions and forbidden clauses evaluated on the sampled entry agree with the sampled value whenever they compare it with a different value. They should also agree when they compare it with that very value, as they do on a linear scale; this fails, because the sampled entry is not always the entry that to_vector gives for the integer.", "quantifier": "all bounds 1 <= lower < upper <= 2^42 (keeping an integer: up to 2^20), all numbers in [0, 1], every np.log and np.exp with an error of at most two units in the last place; the counterexample holds for every correctly rounded np.log", "why_tests_cant": "which integers are missed depends on the last bit of quotients and logarithms; ranges and draws are too many to try", "anchors": ["src/ConfigSpace/functional.py: quantize_log, rescale", "src/ConfigSpace/hyperparameters/distributions.py: DiscretizedContinuousScipyDistribution.sample_vector", "src/ConfigSpace/hyperparameters/uniform_integer.py: UniformIntegerHyperparameter", "src/ConfigSpace/conditions.py: satisfied_by_vector"]}
{"id": "C135", "title": "Configurations sampled together are independent of each other", "statement": "sample_configuration(k) returns k configurations that are independent of each other: given that k configurations are found, the probability of returning c1, ..., ck in this order is the product of the probabilities with which each is sampled alone, however many rounds of drawing and rejecting are needed. The probability of finding k within a number of rounds depends only on the probability with which a drawn vector is rejected.", "quantifier": "all spaces with at least one hyperparameter where sampling raises nothing, all laws of the columns drawn independently, all k, all numbers of rounds, all predicates on the returned vectors", "why_tests_cant": "which columns are kept and where a round stops depends on all columns; a bias in a joint distribution of many draws is invisible in single test runs", "anchors": ["src/ConfigSpace/space.py: ConfigurationSpace.sample_configuration", "src/ConfigSpace/hyperparameters/hyperparameter.py: Hyperparameter._vector_dist"]}
{"id": "C136", "title": "Unrelated parts of a space do not influence each other", "statement": "When the conditions and clauses of a space fall into two groups that mention disjoint sets of hyperparameters, the space behaves like the pair of the two smaller spaces: a dictionary is accepted exactly if its two parts are accepted by the smaller spaces; an assignment to a hyperparameter of one part succeeds exactly if it does in the smaller space, has the same effect there and none on the other part; a column of random numbers is accepted, and a configuration is sampled, with the product of the probabilities of the parts.", "quantifier": "all pairs of spaces and their union, all dictionaries, assignments, laws of the columns drawn independently, numbers of rounds", "why_tests_cant": "needs a comparison of three spaces for all their configurations; merging of conditions, layout by depth and name, and caches of clauses cross the border between the parts", "anchors": ["src/ConfigSpace/configuration_space.py: ConfigurationSpace.add, add_configuration_space, sample_configuration", "src/ConfigSpace/configuration.py: Configuration.__setitem__"]}
{"id": "C137", "title": "A sampled value has the distribution of its hyperparameter", "statement": "Among the sampled configurations in which a hyperparameter is active, its value has the distribution of the hyperparameter, independently of the values of all hyperparameters that do not depend on it and of the other configurations of the same call, as long as no forbidden clause mentions it or a hyperparameter that depends on it.", "quantifier": "all spaces with conditions and clauses, hyperparameters, laws of the columns drawn independently, events, sizes of the sample and numbers of rounds", "why_tests_cant": "a statement about probabilities; rejected columns, inactive values and the order in which conditions are evaluated could each distort the distribution by amounts no test of frequencies settles", "anchors": ["src/ConfigSpace/configuration_space.py: ConfigurationSpace.sample_configuration", "src/ConfigSpace/hyperparameters/hyperparameter.py: Hyperparameter._sample_vector"]}
{"id": "C138", "title": "The one-exchange neighbourhood is symmetric", "statement": "If get_one_exchange_neighbourhood(c) yields c', then get_one_exchange_neighbourhood(c') yields c, for categorical, ordinal and integer hyperparameters whose neighbours fit into the requested number.", "quantifier": "every space with conditions and clauses, valid configuration, yielded neighbour, and all random numbers of both runs", "why_tests_cant": "two runs of a randomised generator over all spaces and configurations; which configuration comes back depends on defaults of reactivated hyperparameters and on clauses", "anchors": ["src/ConfigSpace/util.py: get_one_exchange_neighbourhood, change_hp_value"]}
{"id": "C139", "title": "The default configuration is the only valid configuration with the default values", "statement": "get_default_configuration returns the one valid configuration all of whose values are the defaults of their hyperparameters. It depends neither on the order in which hyperparameters and conditions were added nor on the forbidden clauses; adding hyperparameters and conditions on them leaves the default values of the old hyperparameters as they were; and the default of a space made of two unrelated spaces consists of their two defaults, the joined space being accepted whenever both are. add_configuration_space under a parent value takes over the defaults of the added space exactly when that value is the default of the parent.", "quantifier": "all spaces, orders of declarations, extensions, pairs of unrelated spaces", "why_tests_cant": "uniqueness quantifies over all configurations, and the comparison over all ways to build the space", "anchors": ["src/ConfigSpace/configuration_space.py: ConfigurationSpace.get_default_configuration, add"]}
{"id": "C140", "title": "The grid and the neighbours of two unrelated spaces are those of the parts", "statement": "When a space consists of two parts such that no condition or forbidden clause mentions hyperparameters of both, generate_grid on the whole yields exactly the combinations of a configuration of the grid of the first part and one of the grid of the second, each once, so that the number of grid configurations is the product of the two numbers. get_one_exchange_neighbourhood of a configuration of the whole yields exactly the configurations in which one part is replaced by one of its neighbours and the other is unchanged.", "quantifier": "all pairs of unrelated spaces, grid sizes, configurations, random choices", "why_tests_cant": "the two algorithms expand or exchange hyperparameters one after another in an order that depends on the whole space; that the result factorises is a statement about all pairs of spaces and all runs", "anchors": ["src/ConfigSpace/util.py: generate_grid, get_one_exchange_neighbourhood"]}
{"id": "C141", "title": "A forbidden clause takes configurations away and changes nothing else", "statement": "After forbidden clauses are added to a space, generate_grid yields the same configurations in the same order, except those that a new clause forbids. With the same random draws sample_configuration keeps exactly those candidates that it kept before and that no new clause forbids, so the configurations that are still allowed are returned in the same proportions as before. The one-exchange neighbours of a configuration that is still valid are the former ones, except those that a new clause forbids.", "quantifier": "all spaces, added forbidden clauses, grid sizes, random draws, configurations", "why_tests_cant": "adding a clause rebuilds the tables behind grid, sampling and neighbourhood; that the result is a filter of the former result, with unchanged proportions, is a statement about all spaces and all draws", "anchors": ["src/ConfigSpace/configuration_space.py: ConfigurationSpace.add, sample_configuration", "src/ConfigSpace/util.py: generate_grid, get_one_exchange_neighbourhood"]}
{"id": "C142", "title": "A space added under a parent value is sampled as by itself", "statement": "After add_configuration_space(..., parent_hyperparameter={'parent': q, 'value': v}), one random vector gives a configuration in which q has the value v with the probability that the target gives its part times the probability that the added space gives the other part, and a configuration in which q does not have the value v with the probability that the target alone gives it. sample_configuration() therefore returns configurations that differ only in the added part in the proportions in which sample_configuration() of the added space returns these parts.", "quantifier": "all targets, added spaces, parents, values, configurations, numbers of rounds", "why_tests_cant": "it is a statement about probabilities in all nested spaces; a sampling test sees a few spaces up to statistical error", "anchors": ["src/ConfigSpace/configuration_space.py: ConfigurationSpace.add_configuration_space, sample_configuration"]}
{"id": "C143", "title": "The order of the grid", "statement": "generate_grid returns first the configurations in which no conditional hyperparameter is active, in the lexicographic order of the unconditional hyperparameters: the last one varies fastest, choices and levels come in the order given and numbers in ascending order. Every configuration with an active conditional hyperparameter comes after them.", "quantifier": "all spaces, numbers of steps, pairs of configurations of the grid", "why_tests_cant": "the order follows from a queue that grows while it is read, for every graph of conditions; a test compares a few lists", "anchors": ["src/ConfigSpace/util.py: generate_grid"]}
{"id": "C144", "title": "The grid of a space with a space added under a parent value", "statement": "After add_configuration_space(..., parent_hyperparameter={'parent': q, 'value': v}), with the same numbers of steps under the new names, generate_grid returns each configuration of the grid of the target in which q does not have the value v, with no added hyperparameter active, and each configuration of the grid of the target in which q has the value v together with each configuration of the grid of the added space, and nothing else. So their number is the number of the former plus the number of the latter times the size of the grid of the added space.", "quantifier": "all targets, added spaces, parents, values, numbers of steps", "why_tests_cant": "it relates the grids of all nested spaces, whatever conditions and clauses the parts have; a test compares a few lists", "anchors": ["src/ConfigSpace/util.py: generate_grid", "src/ConfigSpace/configuration_space.py: ConfigurationSpace.add_configuration_space"]}
{"id": "C145", "title": "The default configuration of a space with an added space", "statement": "After add_configuration_space without a parent, the default configuration consists of the default configurations of the two spaces. With parent_hyperparameter={'parent': q, 'value': v}, it has the values of the default configuration of the target, and under the new names those of the default configuration of the added space if q has the value v by default, and none otherwise.", "quantifier": "all targets, added spaces, prefixes, parents, values", "why_tests_cant": "it compares the defaults of all pairs of spaces, with any conditions inside; a test compares a few", "anchors": ["src/ConfigSpace/configuration_space.py: ConfigurationSpace.add_configuration_space, get_default_configuration"]}
{"id": "C146", "title": "Spaces can be added under parent values in either order", "statement": "Adding two configuration spaces with different prefixes under parent values of hyperparameters of the target succeeds in either order, and the two results have the same vector layout, conditions, clauses and default configuration and give the same results for the same calls (construction and validity of configurations, sampling with the same random numbers, one-exchange neighbours).", "quantifier": "all targets, pairs of added spaces, prefixes, parents, values", "why_tests_cant": "a test compares the two orders for a few spaces; the claim is about all conditions and clauses in the three spaces", "anchors": ["src/ConfigSpace/configuration_space.py: ConfigurationSpace.add_configuration_space"]}
{"id": "C147", "title": "The neighbours in a space with an added space", "statement": "Every one-exchange neighbour of a valid configuration of a space to which another space was added under a parent value exchanges the value of one active hyperparameter by another legal value. If it is one of the target, the values of the target change as in the target alone, and the added part keeps its values while the parent keeps the given value, gets exactly its default values when the parent gets the value, and loses all its values when the parent loses it. If it is one of the added space, then the parent has the value, the values of the target stay, and the added part changes as in the added space alone. Forbidden clauses of the part that mention the exchanged hyperparameter hold afterwards. Conversely, when all neighbours of the value fit into the requested number, every such exchange is among the neighbours.", "quantifier": "all targets, added spaces, prefixes, parents, values, configurations, numbers of neighbours, random numbers", "why_tests_cant": "a test looks at the neighbours of a few configurations of a few nested spaces; the claim is about all conditions inside both spaces and all ways the parent can gain or lose the value", "anchors": ["src/ConfigSpace/util.py: get_one_exchange_neighbourhood", "src/ConfigSpace/configuration_space.py: ConfigurationSpace.add_configuration_space", "src/ConfigSpace/util.py: change_hp_value"]}
