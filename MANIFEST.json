{
 "claims": [
  {
   "property": "C01",
   "status": "proved",
   "theorems": [
    "C01_order",
    "C01_parents_first"
   ],
   "note": "Order by (longest chain, name); parents have smaller indices."
  },
  {
   "property": "C02",
   "status": "proved",
   "theorems": [
    "C02_insertion_order"
   ],
   "note": ""
  },
  {
   "property": "C03",
   "status": "proved",
   "theorems": [
    "C03_bijection",
    "C03_keys"
   ],
   "note": ""
  },
  {
   "property": "C04",
   "status": "proved",
   "theorems": [
    "C04_depth",
    "C04_unique"
   ],
   "note": ""
  },
  {
   "property": "C05",
   "status": "proved",
   "theorems": [
    "C05_acyclic",
    "C05_cyclic_iff",
    "C05_reason"
   ],
   "note": "Every rejection as cyclic means a cycle among the declared conditions plus the new ones; a space built by successful calls has none; adding one condition to a known child fails as cyclic exactly on a cycle (C05_cyclic_iff)."
  },
  {
   "property": "C06",
   "status": "proved",
   "theorems": [
    "C06_one_condition",
    "C06_ambiguous",
    "C06_equal",
    "C06_reason"
   ],
   "note": "An equal condition added again is never a declaration error, and if the call succeeds the layout and depths stay. Activation: see C57."
  },
  {
   "property": "C07",
   "status": "proved",
   "theorems": [
    "C07_known_names",
    "C07_unknown_child",
    "C07_unknown_parent",
    "C07_unknown_in_clause",
    "C07_reason"
   ],
   "note": ""
  },
  {
   "property": "C08",
   "status": "partial",
   "theorems": [
    "C08_single_partial",
    "C08_atomic_refuted",
    "C08_poisoned_refuted"
   ],
   "note": "Refuted: a rejected call can leave hyperparameters or a cycle behind. Partial: single-item calls rejected with AlreadyExists, ChildNotFound, Ambiguous or HyperparameterNotFound leave the space identical."
  },
  {
   "property": "C09",
   "status": "proved",
   "theorems": [
    "C09_partition"
   ],
   "note": ""
  },
  {
   "property": "C10",
   "status": "proved",
   "theorems": [
    "C10_inverse",
    "C10_total",
    "C10_parent_conditions",
    "C10_child_conditions"
   ],
   "note": ""
  },
  {
   "property": "C11",
   "status": "proved",
   "theorems": [
    "C11_value_vector",
    "C11_batch",
    "C11_meaning"
   ],
   "note": "All condition trees, all kinds; the common answer is also shown to be the independent meaning `holds`."
  },
  {
   "property": "C12",
   "status": "partial",
   "theorems": [
    "C12_value",
    "C12_vector_partial",
    "C12_batch_partial",
    "C12_meaning_partial",
    "C12_refuted",
    "C12_refuted_observable"
   ],
   "note": "Refuted for != (NaN != v); proved for the value evaluation and, without != on inactive parents, for vectors, batches and trees."
  },
  {
   "property": "C13",
   "status": "partial",
   "theorems": [
    "C13_once",
    "C13_merge_partial",
    "C13_merge_sound_partial",
    "C13_refuted",
    "C13_refuted_observable"
   ],
   "note": "Exactly one node per conditional hyperparameter proved. Same truth value refuted for And/Or mixtures; proved when all conditions use only And (or only Or) without repeated components, and whenever merged conditions agree."
  },
  {
   "property": "C14",
   "status": "proved",
   "theorems": [
    "C14_accepts_iff",
    "C14_rejects_iff"
   ],
   "note": "Acceptance iff no declared clause holds; rejection iff some declared clause holds (when no clause raises TypeError). Clauses refer to hyperparameters of the space."
  },
  {
   "property": "C15",
   "status": "partial",
   "theorems": [
    "C15_value_vector_partial",
    "C15_meaning_partial",
    "C15_batch",
    "C15_refuted"
   ],
   "note": "Refuted for accepted non-integers of integer hyperparameters in relations; proved otherwise. Batches proved."
  },
  {
   "property": "C16",
   "status": "proved",
   "theorems": [
    "C16_vector",
    "C16_value",
    "C16_batch"
   ],
   "note": ""
  },
  {
   "property": "C17",
   "status": "partial",
   "theorems": [
    "C17_accepts_valid_partial",
    "C17_guard",
    "C17_accepted",
    "C17_unknown_key",
    "C17_illegal_value",
    "C17_refuted",
    "C17_inexact_refuted",
    "C17_empty_key_refuted"
   ],
   "note": "Iff proved for tame spaces (conditions refer to the space's objects, no wrongly merged conditions, != only on unconditional parents, < and > between numbers) and exact integers; what acceptance implies, unknown keys and illegal values proved for every space. Refuted: != on a conditional parent, 100000.4 for an integer, the key ''."
  },
  {
   "property": "C18",
   "status": "partial",
   "theorems": [
    "C18_reads",
    "C18_rounding",
    "C18_copy_partial",
    "C18_copy_refuted"
   ],
   "note": "Reading back, absent keys and iteration proved for every space and accepted dictionary. A copy from the vector: proved for exact integers, refuted for 99991.00001."
  },
  {
   "property": "C19",
   "status": "partial",
   "theorems": [
    "C19_failure",
    "C19_success_partial",
    "C19_illegal",
    "C19_sequence",
    "C19_refuted"
   ],
   "note": "C19_failure, C19_illegal and C19_sequence hold without restriction. C19_success_partial covers the read-back for values that are exact; C19_refuted shows that a float is read back rounded to 13 decimals."
  },
  {
   "property": "C20",
   "status": "partial",
   "theorems": [
    "C20_succeeds_partial",
    "C20_unique",
    "C20_reads_partial",
    "C20_guard_single",
    "C20_guard_levels",
    "C20_start",
    "C20_refuted",
    "C20_reset_refuted"
   ],
   "note": "C20_succeeds_partial and C20_reads_partial hold for tame spaces whose shallowest-parent order is an evaluation order (orderly; C20_guard_single and C20_guard_levels give simple sufficient conditions). Without that C20_refuted (a stale dependant makes the assignment raise) and C20_reset_refuted (a value that stays active is reset to its default)."
  },
  {
   "property": "C21",
   "status": "proved",
   "theorems": [
    "C21_exists",
    "C21_defaults",
    "C21_valid",
    "C21_no_KeyError"
   ],
   "note": "Existence and 'values are the defaults' proved for every built space; full validity (legal, exactly the active ones set, no clause violated) when conditions refer to the objects of the space; computing it raises no KeyError."
  },
  {
   "property": "C22",
   "status": "proved",
   "theorems": [
    "C22_never_forbidden",
    "C22_not_violated"
   ],
   "note": "Every built space, every draw function, every size: no returned vector is forbidden (by vector), nor is an assignment it represents."
  },
  {
   "property": "C23",
   "status": "partial",
   "theorems": [
    "C23_entries",
    "C23_accepted_partial",
    "C23_valid_partial",
    "C23_refuted"
   ],
   "note": "C23_entries: every space. Validity proved for tame, orderly spaces and draws that are legal entries (accepted by the check) or encodings of values (valid assignment). C23_refuted: a condition evaluated before its parent is switched off."
  },
  {
   "property": "C24",
   "status": "proved",
   "theorems": [
    "C24_count",
    "C24_length",
    "C24_stops"
   ],
   "note": "Exact count for every terminating call; termination without clauses, whatever the draws."
  },
  {
   "property": "C25",
   "status": "partial",
   "theorems": [
    "C25_sound_partial",
    "C25_valid_partial",
    "C25_refuted"
   ],
   "note": "C25_refuted: only the clauses that mention the exchanged hyperparameter are checked, so a clause about a hyperparameter that becomes active can be violated. C25_sound_partial: what every yielded configuration is (one hyperparameter exchanged, newly active ones at their defaults, the rest untouched, clauses about the exchanged one respected). C25_valid_partial: valid if every clause mentions what the activity of its hyperparameters depends on."
  },
  {
   "property": "C26",
   "status": "proved",
   "theorems": [
    "C26_local",
    "C26_entries"
   ],
   "note": "C26_local and C26_entries hold for every built space and every vector."
  },
  {
   "property": "C27",
   "status": "partial",
   "theorems": [
    "C27_agree_partial",
    "C27_refuted",
    "C27_refuted_or",
    "C27_refuted_inf"
   ],
   "note": "Refuted: range of unconditional entries, disjunctions, infinite entries. Proved for conjunctive spaces and vectors with missing or legal entries."
  },
  {
   "property": "C28",
   "status": "partial",
   "theorems": [
    "C28_active_set_partial",
    "C28_sound",
    "C28_refuted"
   ],
   "note": "Refuted for disjunctions; proved for conjunctive spaces. Never lists a hyperparameter without value, in any space."
  },
  {
   "property": "C29",
   "status": "partial",
   "theorems": [
    "C29_sound_partial",
    "C29_refuted"
   ],
   "note": "Guards of C17. No guard on the grid: whatever is returned is valid and, up to the 13 decimals of stored floats, on the grid. C29_refuted: without the guard on merged conditions a grid contains a configuration that leaves an active hyperparameter out."
  },
  {
   "property": "C30",
   "status": "partial",
   "theorems": [
    "C30_complete_partial",
    "C30_ends",
    "C30_returns_partial",
    "C30_refuted"
   ],
   "note": "C30_refuted: a condition with two parents of which one is inactive raises KeyError. C30_complete_partial: what is returned contains every valid assignment on the grid, if rounding to 13 decimals leaves the grid alone and the space has a hyperparameter. C30_returns_partial: it returns if no condition is on two parents one of which is conditional. C30_ends: it ends on every space and steps dictionary."
  },
  {
   "property": "C31",
   "status": "partial",
   "theorems": [
    "C31_determined",
    "C31_bound_partial",
    "C31_exact",
    "C31_infinite",
    "C31_refuted"
   ],
   "note": "Bound for every built non-empty space of finite hyperparameters, equality without conditions and clauses, infinite iff there is a float. C31_refuted: the empty space (0 although it has one configuration)."
  },
  {
   "property": "C32",
   "status": "proved",
   "theorems": [
    "C32_default"
   ],
   "note": "Strategy 'default', any configuration made by the API."
  },
  {
   "property": "C33",
   "status": "partial",
   "theorems": [
    "C33_refuted",
    "C33_refuted_error",
    "C33_sound_partial",
    "C33_vector_partial",
    "C33_unique"
   ],
   "note": "Guards of C17; for vectors additionally that rounding does not change the values. C33_unique: the active part is determined by the input, without further guards than references. C33_refuted: without the guard on merged conditions the result can leave an active hyperparameter out; C33_refuted_error: or the call raises InactiveHyperparameterSetError."
  },
  {
   "property": "C34",
   "status": "proved",
   "theorems": [
    "C34_values_roundtrip",
    "C34_vectors_roundtrip",
    "C34_injective",
    "C34_ordinal_order",
    "C34_constant"
   ],
   "note": "Categorical, ordinal and constant; Python equality py_eqb. Tuples and arrays as values are not modelled."
  },
  {
   "property": "C35",
   "status": "proved",
   "theorems": [
    "C35_int_roundtrip",
    "C35_int_increasing",
    "C35_int_legal_vector"
   ],
   "note": "Linear and logarithmic integers, exact arithmetic, any log/exp pair satisfying EnvLaws."
  },
  {
   "property": "C36",
   "status": "proved",
   "theorems": [
    "C36_float_roundtrip",
    "C36_float_onto",
    "C36_float_increasing"
   ],
   "note": "Exact arithmetic, any log/exp pair satisfying EnvLaws."
  },
  {
   "property": "C37",
   "status": "proved",
   "theorems": [
    "C37_default_legal",
    "C37_domain_nonempty",
    "C37_uniform_int_accepts",
    "C37_uniform_float_accepts"
   ],
   "note": "All nine constructors."
  },
  {
   "property": "C38",
   "status": "partial",
   "theorems": [
    "C38_value_to_vector_partial",
    "C38_vector_to_value_partial",
    "C38_value_to_vector_refuted",
    "C38_vector_to_value_refuted"
   ],
   "note": "Full statement refuted both ways (tolerance of the integer test); proved for exact integers and integral entries."
  },
  {
   "property": "C39",
   "status": "partial",
   "theorems": [
    "C39_legal_integers_partial",
    "C39_integers_legal",
    "C39_only_integers_refuted"
   ],
   "note": "Refuted: relative tolerance 1e-5. The partial theorem characterises exactly what is accepted."
  },
  {
   "property": "C40",
   "status": "partial",
   "theorems": [
    "C40_scalar_array_partial",
    "C40_scalar_array_refuted"
   ],
   "note": "Refuted for linear integers; proved for all other kinds and for vectors of integers."
  },
  {
   "property": "C41",
   "status": "partial",
   "theorems": [
    "C41_many_partial",
    "C41_weighted",
    "C41_sampled_partial",
    "C41_legal_partial",
    "C41_draws_partial",
    "C41_refuted"
   ],
   "note": "Every kind except normal/beta integers with log=True, whose distribution ignores the scale (C41_refuted, for every logarithm with a geometric mean of 1 and 3 between 1.5 and 1.9). The weighted draw hits each choice exactly on an interval of the length of its probability."
  },
  {
   "property": "C42",
   "status": "partial",
   "theorems": [
    "C42_quantize_on_bins",
    "C42_quantize_fixes_bins",
    "C42_quantize_idempotent",
    "C42_quantize_monotone",
    "C42_quantize_ends",
    "C42_quantize_error",
    "C42_quantize_closest_refuted"
   ],
   "note": "On-bin, fixed bins, idempotent, monotone, ends, error bound proved; 'closest bin' refuted."
  },
  {
   "property": "C43",
   "status": "partial",
   "theorems": [
    "C43_int_partial",
    "C43_all",
    "C43_returns",
    "C43_refuted"
   ],
   "note": "Exact centres: legal, different from each other and the centre, min(n, size-1) many; all others for n >= size-1; success when the random numbers contain n different others. C43_refuted: a legal centre that is an integer only up to the tolerance is returned as its own neighbour."
  },
  {
   "property": "C44",
   "status": "partial",
   "theorems": [
    "C44_lowest_partial",
    "C44_fewer_partial",
    "C44_refuted"
   ],
   "note": "Refuted for every centre above the lowest value: one entry too many (C44_refuted). Proved for the lowest centre and for n < size-1."
  },
  {
   "property": "C45",
   "status": "partial",
   "theorems": [
    "C45_ordinal_partial",
    "C45_refuted_low",
    "C45_refuted_high"
   ],
   "note": "Exact centres, every length, position, n and random choice. Refuted for entries that are integers up to the tolerance."
  },
  {
   "property": "C46",
   "status": "partial",
   "theorems": [
    "C46_categorical_partial",
    "C46_refuted",
    "C46_refuted_inexact"
   ],
   "note": "Exact centres; C46_refuted: n is ignored for at most five choices; refuted for entries that are integers up to the tolerance."
  },
  {
   "property": "C47",
   "status": "partial",
   "theorems": [
    "C47_illegal",
    "C47_bounded_partial",
    "C47_sum_partial",
    "C47_weights",
    "C47_uniform_partial",
    "C47_refuted"
   ],
   "note": "Uniform, categorical, ordinal, constant proved; C47_refuted: beta integer, sum 3/2 and reported maximum not reached."
  },
  {
   "property": "C48",
   "status": "proved",
   "theorems": [
    "C48_center_range",
    "C48_center_range_outside"
   ],
   "note": ""
  },
  {
   "property": "C49",
   "status": "partial",
   "theorems": [
    "C49_arange_chunked_refuted",
    "C49_arange_chunked_partial",
    "C49_linspace_chunked",
    "C49_split_arange"
   ],
   "note": "arange_chunked with step > 1 refuted; proved for step 1; linspace_chunked and split_arange proved."
  },
  {
   "property": "C50",
   "status": "partial",
   "theorems": [
    "C50_partial",
    "C50_refuted"
   ],
   "note": "C50_refuted: a normal float on the log scale with a tiny positive mean encodes a mean rounded to 0, which the decoder rejects. Proved of all others. meta data are strings in the model, numbers are rationals."
  },
  {
   "property": "C51",
   "status": "partial",
   "theorems": [
    "C51_condition_partial",
    "C51_clause_partial",
    "C51_refuted"
   ],
   "note": "C51_refuted: a condition about a hyperparameter object that only shares its name with one of the space. Proved of trees about the hyperparameters of the space; the tree that comes back is the same, not only an equal one."
  },
  {
   "property": "C52",
   "status": "partial",
   "theorems": [
    "C52_same_partial",
    "C52_accepts_partial",
    "C52_returns_partial",
    "C52_equal_partial",
    "C52_refuted",
    "C52_meta_refuted",
    "C52_dropped_refuted"
   ],
   "note": "C52_refuted: clauses added in several calls are kept per hyperparameter in an order that depends on the history, and == compares it. C52_meta_refuted: the meta data of the space are lost. C52_dropped_refuted: one of two conditions with the same string is lost. Proved: without the last, the result has the same hyperparameters, order, conditions and clauses (C52_same_partial, with exactly when it is equal), it does come back (C52_returns_partial), it accepts the same configurations (C52_accepts_partial), and it is equal if all clauses were added in one call (C52_equal_partial)."
  },
  {
   "property": "C53",
   "status": "partial",
   "theorems": [
    "C53_twice",
    "C53_partial",
    "C53_refuted",
    "C53_items_partial"
   ],
   "note": "C53_refuted; C53_twice: false of every dictionary with a hyperparameter: the decoders remove the type entries, so decoding it again raises KeyError. Proved: the keys and all entries but the three lists stay (C53_partial), and whether the call returns or raises the lists keep their items in order and the items all entries but the type and, for hyperparameters, those of older formats (C53_items_partial)."
  },
  {
   "property": "C54",
   "status": "partial",
   "theorems": [
    "C54_names_partial",
    "C54_plain_names_partial",
    "C54_partial",
    "C54_accepts_partial",
    "C54_clash",
    "C54_source_partial",
    "C54_names_refuted",
    "C54_source_refuted",
    "C54_twice_refuted",
    "C54_parent_partial",
    "C54_parent_refuted"
   ],
   "note": "C54_names_refuted: two names of the source may become one; C54_source_refuted: the call renames hyperparameters of the source; C54_twice_refuted: a second call with the same source gives unexpected names and takes clauses from the first; C54_parent_refuted: under a parent, a hyperparameter with a != condition stays active when the rest of the source is not. Proved when the new names are pairwise different and free: C54_partial (parts and validity), C54_accepts_partial, C54_parent_partial (parent_hyperparameter, source without !=); C54_clash gives the exception otherwise, C54_source_partial what can change in the source. Conditions that a space does not list (C58) are lost."
  },
  {
   "property": "C55",
   "status": "partial",
   "theorems": [
    "C55_partial",
    "C55_accepts_partial",
    "C55_condition_partial",
    "C55_clause",
    "C55_refuted",
    "C55_raises_refuted"
   ],
   "note": "C55_refuted: a conjunction within a conjunction is flattened, which changes which configurations are valid; C55_raises_refuted: the call may then raise. Proved of conditions without nested conjunctions (C55_partial, C55_accepts_partial); a nested conjunction of one kind keeps its meaning (C55_condition_partial), and so does every clause (C55_clause). Conditions that a space does not list (C58) are lost."
  },
  {
   "property": "C56",
   "status": "partial",
   "theorems": [
    "C56_mapping_partial",
    "C56_len_partial",
    "C56_refuted"
   ],
   "note": "len refuted; membership, iteration and KeyError proved; len right when all are active."
  },
  {
   "property": "C57",
   "status": "partial",
   "theorems": [
    "C57_refl",
    "C57_sym",
    "C57_trans",
    "C57_truth_partial",
    "C57_refuted"
   ],
   "note": "Equivalence proved. Same truth value refuted for conditions on equal categorical objects with reordered choices; proved for references to hyperparameters of one space."
  },
  {
   "property": "C58",
   "status": "partial",
   "theorems": [
    "C58_partial",
    "C58_refuted"
   ],
   "note": "Refuted: string collision. Proved when the strings of conditions in force differ."
  },
  {
   "property": "C59",
   "status": "partial",
   "theorems": [
    "C59_partial",
    "C59_apart",
    "C59_refuted",
    "C59_condition_refuted",
    "C59_text_refuted"
   ],
   "note": "C59_refuted: a clause added to a second space with another layout makes the first space reject what it accepted and accept what it rejected; C59_condition_refuted: the same for a condition; C59_text_refuted: of two conditions with one text only one gets positions, and adding both raises. C59_partial: with shared objects at the same positions and differing texts, in every history, a space evaluates by name; C59_apart: additions to spaces that share no object change nothing. An update that raises while it computes its tables is modelled as writing nothing."
  },
  {
   "property": "C60",
   "status": "partial",
   "theorems": [
    "C60_restores_partial",
    "C60_vector",
    "C60_refuted"
   ],
   "note": "str, int and float are parameters; the theorems ask that strings are printed as themselves and that the numbers in question are read back. C60_refuted: True is a legal value for the choice 1, but printed differently, so ValueError. C60_restores_partial: values that are the candidates themselves are restored. C60_vector: so it is for every configuration made from a vector."
  },
  {
   "property": "C61",
   "status": "partial",
   "theorems": [
    "C61_categorical",
    "C61_ordinal",
    "C61_constant",
    "C61_uniform_int_partial",
    "C61_normal_int",
    "C61_beta_int",
    "C61_uniform_float",
    "C61_normal_float",
    "C61_beta_float",
    "C61_uniform_int_default_refuted"
   ],
   "note": "Refuted for the given default of a uniform integer (truncated, not rounded); everything else proved."
  },
  {
   "property": "C62",
   "status": "proved",
   "theorems": [
    "C62_float",
    "C62_returns"
   ],
   "note": "All kinds of float hyperparameters, every centre, n, random stream."
  },
  {
   "property": "C63",
   "status": "proved",
   "theorems": [
    "C63_finite",
    "C63_notset",
    "C63_float",
    "C63_agrees"
   ],
   "note": "Integers, categoricals, constants, floats; ordinals are in C45."
  },
  {
   "property": "C64",
   "status": "proved",
   "theorems": [
    "C64_ends",
    "C64_bound",
    "C64_normal"
   ],
   "note": "Ends under fair random indices for every space; the bounds and the normal end use the guards of C20 and C43."
  },
  {
   "property": "C65",
   "status": "partial",
   "theorems": [
    "C65_complete",
    "C65_once_partial",
    "C65_refuted"
   ],
   "note": "C65_refuted: integers with more values than num_neighbors are sampled anew after the proposals are used up, so a configuration can be yielded twice. Complete and without repetition for categorical and ordinal hyperparameters and integers with at most num_neighbors values."
  },
  {
   "property": "C66",
   "status": "partial",
   "theorems": [
    "C66_refuted",
    "C66_sound_partial",
    "C66_single",
    "C66_frozen",
    "C66_gives_up",
    "C66_raises_partial"
   ],
   "note": "Soundness and the exception classes use the guards of C17 (tame spaces, exact values) and, for continuous hyperparameters, that the rounding of the neighbour is stable (steady); the single neighbourhoods must find a value (yields). C66_single and C66_frozen hold for every space. C66_refuted: without the guard on merged conditions a neighbour of a valid configuration is not valid."
  },
  {
   "property": "C67",
   "status": "partial",
   "theorems": [
    "C67_flat_partial",
    "C67_refuted"
   ],
   "note": "C67_refuted: the limit of 10000 is only for finding an active hyperparameter; if every neighbour is rejected the loop never ends. C67_flat_partial: without conditions and clauses the first proposal is accepted."
  },
  {
   "property": "C68",
   "status": "partial",
   "theorems": [
    "C68_check_partial",
    "C68_reason_partial",
    "C68_allow_partial",
    "C68_assign_partial",
    "C68_refuted"
   ],
   "note": "Partial: needs the guards of C17; C68_refuted: without them, != on an inactive parent makes a hyperparameter look active (see C12) and the exception is untrue."
  },
  {
   "property": "C69",
   "status": "partial",
   "theorems": [
    "C69_raises_partial",
    "C69_repairs_partial",
    "C69_ends",
    "C69_refuted",
    "C69_both_refuted"
   ],
   "note": "C69_refuted: an inactive hyperparameter without a value is not followed, so that given values below it stay and the last check raises InactiveHyperparameterSetError. C69_repairs_partial: inputs in which each given conditional hyperparameter has a given parent are repaired. C69_both_refuted: a dictionary together with a vector raises ValueError, contrary to the documentation. C69_ends holds for every space."
  },
  {
   "property": "C70",
   "status": "partial",
   "theorems": [
    "C70_raises_partial",
    "C70_refuted"
   ],
   "note": "C70_refuted: a point is tested unrounded for conditions but rounded in the configuration, so a condition may hold only of the latter, which raises RuntimeError. C70_raises_partial: with a grid that rounding leaves alone the reasons are an unsupported kind, missing steps or a condition on two parents one of which is conditional (KeyError)."
  },
  {
   "property": "C71",
   "status": "partial",
   "theorems": [
    "C71_once_partial",
    "C71_refuted"
   ],
   "note": "C71_refuted: points of an integer hyperparameter may round to the same integer. C71_once_partial: otherwise each assignment is returned once."
  },
  {
   "property": "C72",
   "status": "partial",
   "theorems": [
    "C72_typed",
    "C72_raises",
    "C72_returns",
    "C72_again",
    "C72_atomic_refuted"
   ],
   "note": "C72_atomic_refuted: values before the one that raises have been replaced. The rest is proved."
  },
  {
   "property": "C73",
   "status": "partial",
   "theorems": [
    "C73_add_iff_partial",
    "C73_raises_partial",
    "C73_empty_refuted"
   ],
   "note": "C73_empty_refuted: an empty conjunction of clauses makes add() raise ValueError. Proved of declarations without one that refer to hyperparameters of the space, whose conditions are merged soundly (C13) and never read an inactive value through a != condition (C14), and whose relations compare comparable values."
  },
  {
   "property": "C74",
   "status": "partial",
   "theorems": [
    "C74_refl",
    "C74_trans",
    "C74_sym_partial",
    "C74_truth_partial",
    "C74_vector_partial",
    "C74_refuted",
    "C74_vector_refuted"
   ],
   "note": "C74_refuted: n in (2, 2) == n in (2, 3) but not the other way round, and they do not forbid the same. C74_vector_refuted: clauses on categoricals with reordered choices are equal and disagree on a vector. Reflexive and transitive always; symmetric and of the same truth without repeated values; conjunctions are always symmetric."
  },
  {
   "property": "C75",
   "status": "partial",
   "theorems": [
    "C75_refl",
    "C75_trans",
    "C75_sym_partial",
    "C75_same",
    "C75_valid_partial",
    "C75_refuted",
    "C75_vector_refuted"
   ],
   "note": "C75_refuted: asymmetry through a clause with a repeated value; one of the spaces accepts what the other forbids. C75_vector_refuted: equal spaces read one vector differently. Reflexive, transitive and C75_same without hypothesis; symmetry and equal sets of valid assignments without repeated values in clauses."
  },
  {
   "property": "C76",
   "status": "partial",
   "theorems": [
    "C76_equal",
    "C76_refl",
    "C76_trans",
    "C76_sym_partial",
    "C76_sym",
    "C76_hash_partial",
    "C76_native_vector",
    "C76_native_values",
    "C76_refuted"
   ],
   "note": "C76_refuted: n = 1 and n = True are equal with different texts, so different hashes. C76_equal characterises ==, C76_refl, C76_trans, C76_sym (one space) hold; C76_sym_partial for two spaces needs clauses without repeated values. C76_hash_partial: equal texts when the values have the types decoding gives, which C76_native_vector and C76_native_values provide; equal floats are assumed to print alike (0.0 and -0.0 are one number in the model)."
  },
  {
   "property": "C77",
   "status": "partial",
   "theorems": [
    "C77_categorical",
    "C77_categorical_raises",
    "C77_ordinal",
    "C77_ordinal_raises",
    "C77_constant",
    "C77_uniform_int",
    "C77_uniform_int_raises",
    "C77_normal_int",
    "C77_normal_int_raises",
    "C77_beta_int",
    "C77_beta_int_raises",
    "C77_uniform_float",
    "C77_uniform_float_raises",
    "C77_normal_float",
    "C77_normal_float_raises",
    "C77_beta_float",
    "C77_beta_float_raises",
    "C77_default_refuted"
   ],
   "note": "One equivalence and one theorem on the exceptions per constructor. C77_default_refuted: a uniform integer accepts a default above its upper bound when it is close to an integer relative to its size (the tolerance is relative) and is truncated into the range. numpy and scipy are asked nothing: sigma <= 0 is accepted by the code as well."
  },
  {
   "property": "C78",
   "status": "partial",
   "theorems": [
    "C78_entry",
    "C78_parses",
    "C78_raises",
    "C78_space",
    "C78_space_raises",
    "C78_result",
    "C78_list",
    "C78_configurations",
    "C78_name_refuted",
    "C78_range_refuted"
   ],
   "note": "C78_list: a sequence of hyperparameters instead of a dictionary. C78_name_refuted: the key is ignored for an entry that is a hyperparameter (a comment in the code says so). C78_range_refuted: only the type of the lower bound counts, so (0, 2.7) is an integer range with the value 3. C78_raises and C78_space_raises exclude bounds that are not numbers."
  },
  {
   "property": "C79",
   "status": "partial",
   "theorems": [
    "C79_accepts",
    "C79_result",
    "C79_raises",
    "C79_default_refuted",
    "C79_meta_refuted"
   ],
   "note": "C79_default_refuted: [1.4, 5.0] with default 1.45 raises ValueError although the range has integers, since the rounded default 1 is outside. C79_meta_refuted: meta is lost (documented for the beta variant only). C79_accepts is the exact condition, C79_result the rest."
  },
  {
   "property": "C80",
   "status": "proved",
   "theorems": [
    "C80_integer",
    "C80_integer_accepts",
    "C80_float",
    "C80_float_accepts",
    "C80_no_bounds",
    "C80_ordered_weights",
    "C80_categorical",
    "C80_categorical_accepts"
   ],
   "note": "C80_integer, C80_float, C80_categorical say what is returned, the ..._accepts theorems when. Distribution objects other than Uniform, Normal and Beta are not modelled."
  },
  {
   "property": "C81",
   "status": "partial",
   "theorems": [
    "C81_value",
    "C81_values",
    "C81_equal_partial",
    "C81_both",
    "C81_differ",
    "C81_refuted"
   ],
   "note": "C81_refuted: reading the density of a normal or beta integer fills fields that == compares, so two equal hyperparameters differ until the other one is read, too. C81_value and C81_values: the numbers never change. C81_equal_partial: equality is unaffected for all other hyperparameters; C81_both: and when both were read. C81_differ: one read is enough."
  },
  {
   "property": "C82",
   "status": "partial",
   "theorems": [
    "C82_copy_refuted",
    "C82_copy_plain_refuted"
   ],
   "note": "C82_copy_refuted: copy raises for every hyperparameter and all keyword arguments (TypeError, or ValueError if a derived field is given); dataclasses.replace passes private fields that no __init__ has."
  },
  {
   "property": "C83",
   "status": "partial",
   "theorems": [
    "C83_hp_partial",
    "C83_round_trip_partial",
    "C83_constant_refuted",
    "C83_strings_refuted",
    "C83_prior_refuted",
    "C83_meta_refuted",
    "C83_ordinal_refuted",
    "C83_name_refuted",
    "C83_digit_refuted",
    "C83_in_refuted",
    "C83_amp_refuted",
    "C83_inactive_refuted",
    "C83_words",
    "C83_numbers",
    "C83_values"
   ],
   "note": "C83_round_trip_partial holds for portable spaces: names and words of the characters of the grammar, no weights, meta data, constants or priors, choices that are strings, numbers that int() and float() read back, flat conditions with binary tests or at least two values, clauses without relations. C83_words, C83_numbers and C83_values say, without the scanners of the model, which texts are words, numbers and values. The round trip theorem also says when the text cannot be read: exactly when some clause is violated with all hyperparameters at their defaults, since read adds the clauses before the conditions (C83_inactive_refuted). The clauses come back as one conjunction per combination of values with the same meaning. C83_*_refuted: constants become categoricals, numbers among choices become strings, priors and meta data are lost, an ordinal with \"categorical\" in its name or values becomes a categorical, a name with a blank or a word in a clause that starts with a digit is written but cannot be read, an in-condition with one value becomes an equality, a parent with \"&&\" in its name breaks the condition. C83_hp_partial is the part on one hyperparameter."
  },
  {
   "property": "C84",
   "status": "proved",
   "theorems": [
    "C84_write_iff"
   ],
   "note": "For every built space, without restriction."
  },
  {
   "property": "C85",
   "status": "proved",
   "theorems": [
    "C85_file",
    "C85_comments"
   ],
   "note": "C85_file and C85_comments, for all texts."
  },
  {
   "property": "C86",
   "status": "proved",
   "theorems": [
    "C86_string",
    "C86_nothing"
   ],
   "note": "C86_string and C86_nothing."
  },
  {
   "property": "C87",
   "status": "partial",
   "theorems": [
    "C87_hp_partial",
    "C87_round_trip_partial",
    "C87_constant_refuted",
    "C87_prior_refuted",
    "C87_clause_refuted",
    "C87_condition_refuted",
    "C87_in_refuted",
    "C87_nested_refuted"
   ],
   "note": "C87_round_trip_partial holds for portable spaces: names and words of the characters of the grammar, no weights, ordinals, constants, priors or meta data, choices that are strings, bounds that float() reads back, conditions that are equalities with or memberships in words and conjunctions of at least two of them, clauses about categoricals without relations. Outside, C87_constant_refuted, C87_prior_refuted, C87_clause_refuted (a clause about a number is written but not read), C87_condition_refuted (a condition on a number likewise), C87_in_refuted (one value comes back as an equality), C87_nested_refuted (nested conjunctions are flattened)."
  },
  {
   "property": "C88",
   "status": "proved",
   "theorems": [
    "C88_write_iff"
   ],
   "note": "For every built space, without restriction."
  },
  {
   "property": "C89",
   "status": "proved",
   "theorems": [
    "C89_file",
    "C89_comments",
    "C89_order",
    "C89_order_new"
   ],
   "note": "C89_order for pcs.read, C89_order_new for pcs_new.read, C89_file and C89_comments for pcs.read (C85 has them for pcs_new.read). When reading raises, it raises for the other order too (the relation is symmetric), not necessarily the same exception."
  },
  {
   "property": "C90",
   "status": "proved",
   "theorems": [
    "C90_add",
    "C90_order"
   ],
   "note": "C90_add: for arguments all of which are hyperparameters, conditions, clauses or iterables of such; the space and the exception are those of add on the three lists; otherwise the space is unchanged and the exception is that of the first bad argument. C90_order: regrouping and moving kinds past each other changes nothing."
  },
  {
   "property": "C91",
   "status": "partial",
   "theorems": [
    "C91_space",
    "C91_result",
    "C91_raises",
    "C91_position_partial",
    "C91_position_refuted"
   ],
   "note": "C91_space, C91_result and C91_raises hold for every list. That the i-th hyperparameter of the space is x_i is C91_position_partial, for at most ten bounds; C91_position_refuted: with eleven bounds position 2 holds x10, because the space sorts by name."
  },
  {
   "property": "C92",
   "status": "partial",
   "theorems": [
    "C92_to_float",
    "C92_meta",
    "C92_back_partial",
    "C92_back_refuted",
    "C92_meta_refuted"
   ],
   "note": "C92_to_float holds for every constructed integer hyperparameter, the parameters of the distribution up to half a unit in the 13th decimal. The meta data are kept for uniform ones only (C92_meta, C92_meta_refuted). The way back is C92_back_partial, for parameters of the distribution that are exact at 13 decimals (meta data are lost); C92_back_refuted has a normal one on a log scale whose way back raises ValueError."
  },
  {
   "property": "C93",
   "status": "partial",
   "theorems": [
    "C93_get_order",
    "C93_inverse",
    "C93_position",
    "C93_check_order",
    "C93_total",
    "C93_get_value",
    "C93_negative_refuted"
   ],
   "note": "For every constructed ordinal. get_value also takes the negative positions, counted from the end (C93_get_value, C93_negative_refuted: there get_order does not give the argument back)."
  },
  {
   "property": "C94",
   "status": "proved",
   "theorems": [
    "C94_load",
    "C94_errors",
    "C94_dict",
    "C94_dump",
    "C94_dump_exact",
    "C94_space",
    "C94_from_json"
   ],
   "note": "C94_load: the reader returns a value exactly for the texts of it, against an inductive grammar of JSON (denotes); C94_errors: it always ends, with ValueError or in what is not modelled (NaN, infinities, code points from 256 on); C94_dict: repeated keys; C94_dump, C94_dump_exact: reading what is written; C94_space: from_json(to_json(x)) is the round trip of C52; C94_from_json: any text of the dictionary. The text of a float is assumed to be a JSON number with fraction or exponent that float() reads back, as repr() of Python gives it; satisfiable: frac_reads."
  },
  {
   "property": "C95",
   "status": "partial",
   "theorems": [
    "C95_legal_partial",
    "C95_vector_partial",
    "C95_legal_one",
    "C95_vector_one_partial",
    "C95_value",
    "C95_value_refuses",
    "C95_mixed",
    "C95_refuted",
    "C95_refuted_bool",
    "C95_refuted_text"
   ],
   "note": "np.asarray chooses one type for a list. Proved when strings are not mixed with other values and, for numerical hyperparameters, the list is not all booleans (for legality) and has no strings (for entries). C95_refuted: in the list [\"x\", 1] the legal 1 is not legal; C95_refuted_bool: a list of True; C95_refuted_text: the string \"0.5\" is not legal but has an entry when the bounds are 0 and 1. C95_mixed says what happens to mixed lists. C95_value, C95_legal_one without guards. numpy arrays given by the caller are lists whose elements have one type already."
  },
  {
   "property": "C96",
   "status": "partial",
   "theorems": [
    "C96_list_partial",
    "C96_mask",
    "C96_illegal_partial",
    "C96_returns_partial",
    "C96_uniform",
    "C96_refuted"
   ],
   "note": "C96_mask: the entry of a value is legal exactly if the value is, for every hyperparameter. C96_refuted: an illegal choice of a categorical raises KeyError."
  },
  {
   "property": "C97",
   "status": "partial",
   "theorems": [
    "C97_int_partial",
    "C97_int_all",
    "C97_float",
    "C97_ordinal",
    "C97_categorical",
    "C97_illegal",
    "C97_refuted"
   ],
   "note": "Consequences of C43, C45, C46, C62 in terms of values. C97_refuted: neighbours of a normal integer hyperparameter contain a value twice, and more than asked for (see C44)."
  },
  {
   "property": "C98",
   "status": "partial",
   "theorems": [
    "C98_values",
    "C98_injective",
    "C98_monotone",
    "C98_unit",
    "C98_refuted"
   ],
   "note": "Float64 model (Float.v, on Flocq). For log scales see C104. C98_refuted: with the range 0..2^60 the integer 2^53 + 1 does not come back."
  },
  {
   "property": "C99",
   "status": "partial",
   "theorems": [
    "C99_int",
    "C99_float_entries",
    "C99_float_monotone",
    "C99_float_values",
    "C99_float_refuted"
   ],
   "note": "Float64 model. Bounds are those of the constructors, rounded to 13 decimals. C99_float_refuted: bounds of 2^1000 become infinite by rounding and the legal value 0 gets the entry NaN."
  },
  {
   "property": "C100",
   "status": "partial",
   "theorems": [
    "C100_single",
    "C100_array_partial",
    "C100_density_partial",
    "C100_refuted"
   ],
   "note": "C100_single for numbers. For arrays C100_array_partial and C100_density_partial need decodes_close: the value is not 0, or at most 511 values are smaller, or 0 is the upper bound. C100_refuted: for UniformInteger(-526, 525) legal_vector([entry of 0]) is False and pdf_values([0]) is 0."
  },
  {
   "property": "C101",
   "status": "partial",
   "theorems": [
    "C101_sample",
    "C101_quantize_partial",
    "C101_neighbors_partial",
    "C101_neighbor_values_partial",
    "C101_refuted",
    "C101_discretized"
   ],
   "note": "C101_sample without a guard on the size. C101_discretized: whatever a normal or beta distribution draws in the unit interval becomes the entry of an integer of the range. The quantization and neighbourhood theorems need at most 2^26 + 1 values. C101_refuted: for 0..2^31 - 1 the integer 2^31 - 2 can be its own neighbour."
  },
  {
   "property": "C102",
   "status": "partial",
   "theorems": [
    "C102_once",
    "C102_stored",
    "C102_read",
    "C102_refuted"
   ],
   "note": "C102_refuted: above about 1.8e295 rounding gives infinity."
  },
  {
   "property": "C103",
   "status": "partial",
   "theorems": [
    "C103_error",
    "C103_values_partial",
    "C103_zero_partial",
    "C103_refuted"
   ],
   "note": "C103_error bounds the error in general; C103_refuted: on [0, 1000] the value 510.2595439561874 does not come back, so configurations with equal vectors have different values."
  },
  {
   "property": "C104",
   "status": "partial",
   "theorems": [
    "C104_values",
    "C104_unit",
    "C104_range",
    "C104_refuted"
   ],
   "note": "np.log and np.exp are parameters (class Libm), assumed to have a relative error of at most 2^-51; the correctly rounded functions meet the assumptions (rounded_log, rounded_exp). C104_refuted: for every accurate and monotone log there are neighbouring integers between 2^52 and 2^53 with the same logarithm; with these bounds the entry of the lower bound is NaN."
  },
  {
   "property": "C105",
   "status": "partial",
   "theorems": [
    "C105_entries",
    "C105_values",
    "C105_error",
    "C105_decimals_partial",
    "C105_refuted"
   ],
   "note": "np.log and np.exp are parameters as in C104, log also monotone (rounded_monotone: true of the correctly rounded function). C105_entries, C105_values and C105_error need bounds with different logarithms. C105_decimals_partial, exact return of the stored value, needs bounds in (0, 1/2]; C105_error bounds the relative error by 2^-38 in general. C105_refuted: with the bounds 256 and 512, whatever log and exp are, two different stored values have the same entry."
  },
  {
   "property": "C106",
   "status": "partial",
   "theorems": [
    "C106_int",
    "C106_int_in",
    "C106_log_int",
    "C106_float_order",
    "C106_float_partial",
    "C106_float_in_partial",
    "C106_refuted",
    "C106_named_refuted",
    "C106_log_float_order",
    "C106_log_refuted"
   ],
   "note": "Float64 model. Integers are proved (C106_int, C106_int_in, C106_log_int given accurate log and exp). C106_float_order and, on a logarithmic scale, C106_log_float_order hold for every range: equal values have equal entries, less by entries is less by values. C106_float_partial and C106_float_in_partial: bounds up to 64 and constants with 13 decimals. C106_refuted: on [0, 1000] the condition > 510.0291812470384 holds of the value 510.0291812470385 but not of its entry. C106_named_refuted: a condition == 1/3 does not hold when 1/3 is assigned, because the value is rounded and the constant is not. C106_log_refuted: on [256, 512] with log=True a condition x == c holds of the vector of another value."
  },
  {
   "property": "C107",
   "status": "partial",
   "theorems": [
    "C107_int",
    "C107_differ_partial",
    "C107_same_partial",
    "C107_refuted",
    "C107_mixed_partial",
    "C107_mixed_refuted"
   ],
   "note": "Float64 model. Integers are proved. C107_differ_partial: floats up to 64 that differ are compared alike. C107_same_partial: with the same bounds all are. C107_refuted: with x in [0, 1] and y in [-5, 5], both 0.3, the configuration passes the clause that forbids x == y and is rejected by the clause that forbids x < y. C107_mixed_partial: an integer and a float up to 64 that differ are compared alike. C107_mixed_refuted: n in 0..10 and y in [0, 49], both 1, pass the clause that forbids n == y."
  },
  {
   "property": "C108",
   "status": "partial",
   "theorems": [
    "C108_has_neighbors_partial",
    "C108_get_neighbors",
    "C108_check_partial",
    "C108_check_stricter",
    "C108_forbidden",
    "C108_has_neighbors_refuted",
    "C108_check_refuted"
   ],
   "note": "C108_has_neighbors_partial: except for categoricals and ordinals with one value; C108_has_neighbors_refuted: those say they have neighbours and have none. C108_check_partial and C108_check_stricter: the deprecated check ignores allow_inactive_with_values, so it rejects configurations the other accepts (C108_check_refuted). C108_forbidden compares declared and merged clauses."
  },
  {
   "property": "C109",
   "status": "partial",
   "theorems": [
    "C109_value_partial",
    "C109_weightless",
    "C109_no_exception",
    "C109_stops_partial",
    "C109_reached_partial",
    "C109_exactly_partial",
    "C109_refuted"
   ],
   "note": "C109_value_partial: every legal value of a hyperparameter can be drawn, except values of weight zero (C109_weightless: never) and normal or beta integers on a logarithmic scale. C109_reached_partial, C109_exactly_partial: the possible samples of a tame, orderly space are exactly the valid assignments without values of weight zero. C109_no_exception: a round raises nothing. C109_stops_partial: the loop ends when again and again some column is valid, with forbidden clauses (C24_stops is the case without). C109_refuted: a valid configuration with a choice of weight zero is never sampled."
  },
  {
   "property": "C110",
   "status": "partial",
   "theorems": [
    "C110_counted_partial",
    "C110_weighted",
    "C110_constant",
    "C110_float_partial",
    "C110_shaped",
    "C110_log",
    "C110_log_refuted",
    "C110_shaped_refuted",
    "C110_units_refuted"
   ],
   "note": "C110_counted_partial (unweighted categorical, ordinal, uniform integer off the logarithmic scale: one of k numbers), C110_weighted (an interval of length the density), C110_constant, C110_float_partial (uniform floats off the logarithmic scale). C110_shaped and C110_log give exactly the numbers that draw an integer of the remaining kinds. They do not match the density: C110_log_refuted (uniform integers on a logarithmic scale, for every logarithm with the stated property), C110_shaped_refuted (a beta integer of density 0 drawn for a third of the numbers), C110_units_refuted (a uniform and a beta float that draw the same values have densities 1/10 and 1)."
  },
  {
   "property": "C111",
   "status": "partial",
   "theorems": [
    "C111_value_partial",
    "C111_vector_partial",
    "C111_sampled",
    "C111_reached",
    "C111_value_refuted",
    "C111_vector_refuted"
   ],
   "note": "C111_value_partial (values that are exactly integers, for integer hyperparameters), C111_vector_partial (not for categorical and ordinal hyperparameters, and integers on a logarithmic scale), C111_sampled and C111_reached (every hyperparameter). C111_value_refuted: a float close to the upper bound is legal and its entry above 1. C111_vector_refuted: an entry slightly above the last index is legal."
  },
  {
   "property": "C112",
   "status": "partial",
   "theorems": [
    "C112_support",
    "C112_spread_partial",
    "C112_log_partial",
    "C112_units_partial",
    "C112_log_refuted",
    "C112_sigma_refuted"
   ],
   "note": "C112_support, C112_spread_partial and C112_units_partial (linear scale), C112_log_partial (logarithmic scale with lower bound 1). C112_log_refuted: vectorize_size divides log(lower + sigma) instead of log(lower + sigma) - log(lower); bounds 0.5 and 2 with sigma 0.5 give scale 0. C112_sigma_refuted: a negative sigma is accepted."
  },
  {
   "property": "C113",
   "status": "partial",
   "theorems": [
    "C113_roundtrip_partial",
    "C113_legal_partial",
    "C113_unknown_partial",
    "C113_decode_partial",
    "C113_densities",
    "C113_different_partial",
    "C113_ordinal_different",
    "C113_default_partial",
    "C113_given_default",
    "C113_constant_partial",
    "C113_number_refuted",
    "C113_wrong_refuted",
    "C113_illegal_refuted",
    "C113_twice_refuted",
    "C113_legal_refuted",
    "C113_list_refuted",
    "C113_constant_refuted"
   ],
   "note": "C113_roundtrip_partial, C113_legal_partial, C113_unknown_partial, C113_decode_partial (all choices hashable, or the value is no number), C113_densities, C113_different_partial, C113_ordinal_different, C113_default_partial, C113_given_default, C113_constant_partial. Refuted: a number beside a list of two numbers raises (C113_number_refuted), beside a list of one number it is taken for the list (C113_wrong_refuted, C113_illegal_refuted); one object twice beside a list is accepted (C113_twice_refuted); a list raises if all choices are hashable (C113_legal_refuted); a list of choices is taken for one value (C113_list_refuted); a constant tuple gives an array for a number (C113_constant_refuted)."
  },
  {
   "property": "C114",
   "status": "partial",
   "theorems": [
    "C114_partial",
    "C114_exact",
    "C114_entry",
    "C114_refuted"
   ],
   "note": "C114_partial (lists of no or several elements), C114_exact (the accepted lists: one legal element), C114_entry. C114_refuted: the list [\"y\"] is accepted and stays a list in the configuration."
  },
  {
   "property": "C115",
   "status": "partial",
   "theorems": [
    "C115_partial",
    "C115_refuted",
    "C115_error_refuted"
   ],
   "note": "C115_partial (no tuples). C115_refuted: tuples come back as lists, the old choices are illegal. C115_error_refuted: a tuple and a list of the same elements are written alike, so that reading raises."
  },
  {
   "property": "C116",
   "status": "partial",
   "theorems": [
    "C116_reach_partial",
    "C116_inactive",
    "C116_stays_partial",
    "C116_refuted"
   ],
   "note": "C116_reach_partial (tame, orderly spaces without clauses), C116_stays_partial and C116_inactive (also with clauses). C116_refuted: two hyperparameters that clauses force to be equal can never be changed by assignments."
  },
  {
   "property": "C117",
   "status": "partial",
   "theorems": [
    "C117_order_partial",
    "C117_succeeds_partial",
    "C117_again",
    "C117_again_succeeds",
    "C117_last_partial",
    "C117_refuted",
    "C117_last_refuted"
   ],
   "note": "C117_order_partial (nothing depends on both, neither on the other), C117_succeeds_partial, C117_again, C117_again_succeeds, C117_last_partial (nothing depends on the hyperparameter). C117_refuted: a child of two parents is reset in one order and kept in the other. C117_last_refuted: switching a parent off and on again resets the child."
  },
  {
   "property": "C118",
   "status": "partial",
   "theorems": [
    "C118_reach_partial",
    "C118_refuted"
   ],
   "note": "C118_reach_partial: tame, orderly spaces without clauses, categorical, ordinal, constant and uniform integer hyperparameters with fewer values than the requested number of neighbours; each run of the generator ends normally and yields the next configuration. Missing: floats and large integers, whose neighbours are random. C118_refuted: with clauses a search can be stuck."
  },
  {
   "property": "C119",
   "status": "partial",
   "theorems": [
    "C119_same_partial",
    "C119_written",
    "C119_equal_partial",
    "C119_equal_once_partial",
    "C119_equal_refuted",
    "C119_children_refuted"
   ],
   "note": "C119_same_partial: all results, exceptions included, are the same when no hyperparameter was given two (equal) conditions and clauses with the same string are the same; C119_written: so are the JSON dictionary and the two PCS texts. C119_equal_partial, C119_equal_once_partial: equality when every hyperparameter got its clauses in the same order, e.g. all in one call. Missing: conditions declared twice. C119_equal_refuted: == is False after adding clauses in two calls in the other order. C119_children_refuted: the list of children keeps a trace of the order."
  },
  {
   "property": "C120",
   "status": "proved",
   "theorems": [
    "C120_pure",
    "C120_plain"
   ],
   "note": "C120_pure: for every space, heap and object, without any hypothesis. C120_plain: with an array of the length of the space the answers are those of the cacheless functions of Space.v, on which the other theorems are stated."
  },
  {
   "property": "C121",
   "status": "partial",
   "theorems": [
    "C121_clauses",
    "C121_unmoved",
    "C121_shift",
    "C121_stale",
    "C121_iteration",
    "C121_given",
    "C121_refuted",
    "C121_conditions_refuted"
   ],
   "note": "C121_clauses: clauses change nothing. C121_given: a configuration made from values keeps reading these. C121_unmoved: a hyperparameter that keeps its position reads as before; C121_shift: how far additional hyperparameters move it. C121_stale: what is read after a move. C121_iteration: with more hyperparameters than entries iteration, dict, ==, hash and repr raise IndexError. C121_refuted: a new key shows the value of an old one, an old one raises IndexError, also from `in`. C121_conditions_refuted: a new condition exchanges the values of two hyperparameters silently."
  },
  {
   "property": "C122",
   "status": "partial",
   "theorems": [
    "C122_alone",
    "C122_made",
    "C122_from_array",
    "C122_from_list",
    "C122_other_array",
    "C122_assignment",
    "C122_refused",
    "C122_remembered",
    "C122_refuted",
    "C122_shared_refuted"
   ],
   "note": "C122_alone: every interleaving of reads and assignments on any number of configurations, sharing arrays or not. C122_assignment, C122_refused: what an assignment does to the arrays. C122_other_array: writes to other arrays are harmless. C122_made, C122_from_list, C122_from_array: which array a configuration has. C122_remembered: what was read stays. C122_refuted, C122_shared_refuted: a write to the own array changes the keys not read yet, and the configuration and its array disagree."
  },
  {
   "property": "C123",
   "status": "partial",
   "theorems": [
    "C123_raises",
    "C123_covers",
    "C123_stays",
    "C123_next_partial",
    "C123_same_partial",
    "C123_half_refuted"
   ],
   "note": "`built` in Spec.v allows such calls, so C01 to C122 hold of spaces built in spite of them. C123_covers: every call that raises is covered, unless because of a cycle or because some but not all parents of a condition are unknown; C123_raises: only calls that raise are. C123_stays: what they leave. C123_next_partial: what the next call accepts. C123_same_partial: all results are those of a space to which the accepted items were added at once; missing: objects that are not those of the space, empty conjunctions, clauses that print alike, equal conditions declared twice. C123_half_refuted (and C08_poisoned_refuted for cycles): these two leave links behind that make a later legitimate condition fail."
  },
  {
   "property": "C124",
   "status": "partial",
   "theorems": [
    "C124_vectors",
    "C124_values",
    "C124_default",
    "C124_active",
    "C124_allowed_partial",
    "C124_hyperparameters_partial",
    "C124_condition_partial",
    "C124_inactive_partial",
    "C124_condition_refuted"
   ],
   "note": "C124_vectors, C124_values, C124_default and C124_active: clauses, for all spaces whose conditions and clauses refer to their own hyperparameters. C124_allowed_partial, C124_hyperparameters_partial, C124_condition_partial and C124_inactive_partial: in terms of the values, for the spaces and values of C17. C124_condition_refuted: outside of these a condition with != need not hold where its child has a value."
  },
  {
   "property": "C125",
   "status": "partial",
   "theorems": [
    "C125_fills",
    "C125_succeeds_partial",
    "C125_raises_partial",
    "C125_back_partial",
    "C125_start_partial",
    "C125_default_partial",
    "C125_default_refuted",
    "C125_float_refuted"
   ],
   "note": "C125_fills: what the result holds, for every space and every configuration made by the API. C125_succeeds_partial: the call succeeds exactly when the substituted values are legal and no clause forbids the result; C125_raises_partial: which exception it raises otherwise; C125_back_partial: deactivate_inactive_hyperparameters gives the values back; C125_default_partial: without clauses the strategy \"default\" succeeds; C125_start_partial: configurations made from values meet the hypotheses; guards of C17. C125_default_refuted: the default configuration of a space may be refused with ForbiddenValueError; C125_float_refuted: a number that no hyperparameter can have, as the documentation suggests, is refused."
  },
  {
   "property": "C126",
   "status": "partial",
   "theorems": [
    "C126_refl",
    "C126_sym",
    "C126_trans",
    "C126_iff",
    "C126_legal",
    "C126_legal_vector",
    "C126_vector_partial",
    "C126_density",
    "C126_sample_partial",
    "C126_vector_refuted",
    "C126_meta_refuted"
   ],
   "note": "C126_refl, C126_sym, C126_trans; C126_iff: equality is the separately stated agreement of the descriptions; C126_legal, C126_legal_vector, C126_density: legal values, legal entries and densities agree for all equal hyperparameters. C126_vector_partial, C126_sample_partial: vectors, decoded values and samples agree unless the hyperparameter is categorical. C126_vector_refuted: equal categorical hyperparameters may have their choices in another order, the same entry or random number is then another value; C126_meta_refuted: their meta data may differ. Densities cached in the objects are left out here (C81)."
  },
  {
   "property": "C127",
   "status": "partial",
   "theorems": [
    "C127_built",
    "C127_again_partial",
    "C127_equal_partial",
    "C127_order",
    "C127_default",
    "C127_none",
    "C127_q",
    "C127_probabilities",
    "C127_relation",
    "C127_reordered",
    "C127_log",
    "C127_meta",
    "C127_weights",
    "C127_no_default",
    "C127_unknown_key",
    "C127_missing_key",
    "C127_type",
    "C127_dangling",
    "C127_again_refuted",
    "C127_probabilities_refuted"
   ],
   "note": "C127_log, C127_meta, C127_weights, C127_no_default: keys left out are read as False or None. C127_unknown_key, C127_missing_key, C127_type, C127_dangling: which exception is raised for an argument the constructor lacks, one it needs, a missing or unknown type, and a condition about a hyperparameter that is not in the space. C127_probabilities_refuted: the old key probabilities is dropped rather than read as weights, so an older dictionary loses its weights. C127_built: every dictionary that is read without error gives a space reachable by add() calls, whose conditions and clauses refer to its hyperparameters. C127_reordered: keys in any order at every level give the same result (C127_order: for one item with its keys permuted). C127_default, C127_none, C127_q, C127_probabilities, C127_relation: each old key. C127_again_partial: what was read and can be written and read again gives the same dictionary, C127_equal_partial: and an equal space if no clause occurs twice; guard distinct_strings of C52. C127_again_refuted: a dictionary whose space is written but cannot be read again."
  },
  {
   "property": "C128",
   "status": "proved",
   "theorems": [
    "C128_new",
    "C128_old",
    "C128_json"
   ],
   "note": "C128_new, C128_old, C128_json: for all lines and texts. The space is reached by add() calls of constructed hyperparameters, conditions and clauses; the numbers of lines of each kind and of items agree; the kinds of hyperparameters each format can give; clauses are conjunctions of equalities; nothing has meta data or a name. In the older format several condition lines of a child make one condition, hence at most as many."
  },
  {
   "property": "C129",
   "status": "partial",
   "theorems": [
    "C129_clause_partial",
    "C129_relation",
    "C129_condition",
    "C129_clause_determined",
    "C129_condition_partial",
    "C129_typed",
    "C129_parts",
    "C129_relation_refuted",
    "C129_condition_refuted",
    "C129_conjunction_refuted"
   ],
   "note": "C129_clause_partial: the dictionary of a clause without relations is read back as the clause. C129_clause_determined: clauses of a space with equal dictionaries are the same, relations included. C129_condition_partial: so are conditions with the same connectives and comparisons. C129_typed: a condition is read back once its type is added; C129_parts: what the dictionary of a conjunction has. False otherwise: C129_relation (C129_relation_refuted): to_dict of a relation writes LESS, EQUALS or GREATER under lambda and the reader of RELATION only knows LT, EQ and GT, so it raises ValueError for every relation. C129_condition: to_dict of a condition has no type, so reading it raises KeyError. C129_condition_refuted, C129_conjunction_refuted: n < 3 and n > 3, a conjunction and a disjunction, have equal dictionaries."
  },
  {
   "property": "C130",
   "status": "partial",
   "theorems": [
    "C130_probability",
    "C130_sum",
    "C130_choice",
    "C130_frequency",
    "C130_default_partial",
    "C130_default_refuted",
    "C130_overflow_refuted",
    "C130_nan_refuted"
   ],
   "note": "For finite weights whose sum is finite, added in any order: C130_probability (unit interval, zero for zero, monotone), C130_sum (the exact sum of the probabilities is within 2^-30 of one, so numpy's choice does not raise), C130_choice (the chosen index exists and has a positive weight), C130_frequency (the drawn number lies in the exact share of the chosen weight up to 2^-28), C130_default_partial (the default is the first of the highest probability, has a positive weight, and a larger weight has the same probability). False: C130_default_refuted (the default need not have the highest weight: 2-2^-51 is taken instead of 2-2^-52 as both probabilities round to the same number), C130_overflow_refuted (1e308 twice is accepted and both probabilities are zero), C130_nan_refuted (infinite weights and NaN are accepted and give probabilities that are no numbers). The algorithm of numpy's choice (cumulated sums, divided by the last, searched from the right) is modelled although it is not code of this project."
  },
  {
   "property": "C131",
   "status": "partial",
   "theorems": [
    "C131_choice_partial",
    "C131_int_partial",
    "C131_entry_partial",
    "C131_float",
    "C131_constant",
    "C131_below_refuted",
    "C131_above_refuted"
   ],
   "note": "C131_choice_partial (categorical and ordinal: entries that are integers), C131_int_partial (uniform integers off the logarithmic scale: all entries legal as a number and in an array), C131_entry_partial (all integers, every distribution and scale: entries of integers), C131_float (all floats), C131_constant. False: C131_below_refuted (1.99999 is read as the third choice, as to_value rounds, but has the probability of the second, as pdf_vector of weighted choices truncates), C131_above_refuted (2.00001 is legal and read as the third choice but has density zero)."
  },
  {
   "property": "C132",
   "status": "partial",
   "theorems": [
    "C132_column_partial",
    "C132_sample_partial",
    "C132_ratio_partial",
    "C132_law",
    "C132_density_partial",
    "C132_order_refuted"
   ],
   "note": "C132_column_partial (one column: exactly the product), C132_sample_partial (sample_configuration within a number of rounds: the product over the chance of acceptance, up to the chance that nothing was accepted), C132_ratio_partial (two configurations), C132_law and C132_density_partial (the laws of choices, ordinals, constants and uniform integers; the factors are the densities that pdf_values returns). Spaces are tame and orderly; laws are finite, so floats are covered only through finite laws. False without the order condition: C132_order_refuted (part of the probability of a valid configuration goes to an invalid vector)."
  },
  {
   "property": "C133",
   "status": "partial",
   "theorems": [
    "C133_column_partial",
    "C133_same_partial",
    "C133_uniform_partial",
    "C133_conditions_refuted"
   ],
   "note": "C133_column_partial (one column gives a valid configuration with one over the product of the sizes of its active hyperparameters), C133_same_partial (sample_configuration within any number of rounds), C133_uniform_partial (no conditions). Spaces are tame and orderly. With conditions sampling is not uniform over all valid configurations: C133_conditions_refuted (1/8 against 1/4)."
  },
  {
   "property": "C134",
   "status": "partial",
   "theorems": [
    "C134_scale",
    "C134_sample",
    "C134_keeps_partial",
    "C134_never_refuted",
    "C134_exact_refuted",
    "C134_differ",
    "C134_linear"
   ],
   "note": "Float64 model, np.log and np.exp as parameters. C134_scale (the ends of the unit interval decode to the bounds), C134_sample (legal, decodes into the range), C134_keeps_partial (the entry of an integer is sampled as this integer, for ranges up to 2^20), C134_differ (tests that compare with another value than the sampled one are right), C134_linear (on a linear scale all tests are right). C134_never_refuted and C134_exact_refuted: for n in 1..100 with log=True and a correctly rounded np.log, whenever 14 is sampled its entry is above that of 14, so the condition n == 14 and a clause forbidding n = 14 are never met by a sampled vector, while n > 14 is."
  },
  {
   "property": "C135",
   "status": "partial",
   "theorems": [
    "C135_independent_partial",
    "C135_success_partial",
    "C135_sample_partial"
   ],
   "note": "Partial: the guards of C132 (tame: sampling raises nothing; at least one hyperparameter; the columns are drawn independently of finite laws with rational probabilities). C135_independent_partial (any predicates), C135_success_partial (the probability that k configurations are found within the given rounds), C135_sample_partial (the product of the products of C132). For independent columns nothing is missing about the order in which they are returned."
  },
  {
   "property": "C136",
   "status": "partial",
   "theorems": [
    "C136_valid",
    "C136_accepts_partial",
    "C136_orderly",
    "C136_assignment_partial",
    "C136_accepted_partial",
    "C136_column_partial",
    "C136_sample_partial"
   ],
   "note": "C136_valid (the valid assignments are the pairs of valid assignments of the parts) holds without guards. So does C136_orderly: the whole is orderly exactly if both parts are. Partial: for tame spaces with exact integers C136_accepts_partial; for tame, orderly spaces C136_assignment_partial, C136_accepted_partial (the chance that a column is accepted), C136_column_partial (the chance that a column gives a configuration) and C136_sample_partial (sample_configuration within some rounds). Missing: the exceptions of a refused assignment may differ."
  },
  {
   "property": "C137",
   "status": "partial",
   "theorems": [
    "C137_column_partial",
    "C137_sample_partial",
    "C137_root_partial",
    "C137_density_partial",
    "C137_refuted"
   ],
   "note": "Partial: tame, orderly spaces, columns drawn independently of finite laws with rational probabilities. C137_column_partial (one column), C137_sample_partial (any position of a sample of any size, whatever holds of the others), C137_root_partial (unconditional hyperparameters), C137_density_partial (with the laws of the library: the probability is pdf_values of the value). C137_refuted: a clause about a hyperparameter that depends on it is enough to change the distribution of a hyperparameter that no clause mentions."
  },
  {
   "property": "C138",
   "status": "partial",
   "theorems": [
    "C138_neighbour",
    "C138_back_partial",
    "C138_flat_partial",
    "C138_refuted"
   ],
   "note": "C138_neighbour: what is yielded has a neighbouring value (of an ordinal the previous or next). C138_back_partial: if the exchange switches no hyperparameter on or off, the yielded configuration is valid and every run from it that ends normally yields the first configuration; C138_flat_partial: so it is in every space without conditions. Guards of C17 and C20. C138_refuted: when a hyperparameter is switched off by the exchange, no run leads back unless it had its default."
  },
  {
   "property": "C139",
   "status": "partial",
   "theorems": [
    "C139_default",
    "C139_unique",
    "C139_order",
    "C139_grow",
    "C139_parts",
    "C139_joined_partial",
    "C139_subspace_partial"
   ],
   "note": "C139_default, C139_unique, C139_order, C139_grow and C139_parts hold for every space whose conditions and clauses refer to its own objects (refs). C139_ex shows that a new condition on an old hyperparameter may change the default. C139_joined_partial: joining two spaces succeeds, with the guards of C73 (conditions all conjunctions or all disjunctions, no empty conjunction of clauses). C139_subspace_partial: after add_configuration_space with a parent the defaults of the target stay, and the defaults of the source are taken exactly if the default of the parent is the given value (guards of C54)."
  },
  {
   "property": "C140",
   "status": "partial",
   "theorems": [
    "C140_split_partial",
    "C140_join_partial",
    "C140_count_partial",
    "C140_neighbours_partial"
   ],
   "note": "C140_split_partial, C140_join_partial and C140_count_partial: the grid, with the guards of C29 and C30 (steady_grid: the grid values survive the round trip through the vector; int_distinct: they are distinct for integers). C140_neighbours_partial: the neighbours, for runs that end normally and hyperparameters whose neighbours are all listed (no floats, integer ranges below the requested number, as in C65), with the order condition of C25."
  },
  {
   "property": "C141",
   "status": "partial",
   "theorems": [
    "C141_grid",
    "C141_round_partial",
    "C141_accepted_partial",
    "C141_ratio_partial",
    "C141_neighbours_partial"
   ],
   "note": "C141_grid has no guard beyond both runs ending normally. C141_round_partial, C141_accepted_partial and C141_ratio_partial: sampling, for tame spaces (guards of C13) and drawn candidates; the ratio compares sampling with rejection until the first accepted candidate, for every allowed number of rounds. C141_neighbours_partial: for runs that end normally and hyperparameters whose neighbours are all listed, as in C140."
  },
  {
   "property": "C142",
   "status": "partial",
   "theorems": [
    "C142_orderly_partial",
    "C142_open_partial",
    "C142_closed_partial",
    "C142_sample_partial"
   ],
   "note": "C142_open_partial and C142_closed_partial (one column), C142_sample_partial (sample_configuration within some rounds), C142_orderly_partial (the order condition of C132 passes to the result). Guards: those of C54_parent_partial (tame spaces, new names distinct, no != conditions in the added space), those of C132 (no floats, no logarithmic or weighted integers; the order condition for the conditions of the target and of the added space)."
  },
  {
   "property": "C143",
   "status": "partial",
   "theorems": [
    "C143_order_partial"
   ],
   "note": "C143_order_partial. Guards: a tame space, values of the grid that are stored unchanged and integer points that stay different when rounded (as in C30 and C71)."
  },
  {
   "property": "C144",
   "status": "partial",
   "theorems": [
    "C144_split_partial",
    "C144_open_partial",
    "C144_closed_partial",
    "C144_count_partial"
   ],
   "note": "C144_split_partial, C144_open_partial, C144_closed_partial (which configurations) and C144_count_partial (how many). Guards: those of C54_parent_partial, values of the grid that are stored unchanged (as in C30), and for the number integer points that stay different when rounded (as in C71)."
  },
  {
   "property": "C145",
   "status": "partial",
   "theorems": [
    "C145_beside_partial",
    "C145_under_partial"
   ],
   "note": "C145_beside_partial (no parent), C145_under_partial (with a parent). Guards: those of C54_partial and C54_parent_partial (tame spaces, new names distinct, clauses and conditions of the added space with distinct texts, no != conditions in it when there is a parent)."
  },
  {
   "property": "C146",
   "status": "partial",
   "theorems": [
    "C146_order_partial"
   ],
   "note": "C146_order_partial. Guards: those of C54_parent_partial for both additions, and those of C119_same_partial (one condition object for each hyperparameter, clauses that print alike are the same). The parents are hyperparameters of the original target."
  },
  {
   "property": "C147",
   "status": "partial",
   "theorems": [
    "C147_neighbours_partial",
    "C147_complete_partial"
   ],
   "note": "C147_neighbours_partial, C147_complete_partial. Guards: those of C54_parent_partial and of C25_sound_partial (the order condition of the target and of the source, integers with exact neighbourhoods); for the converse those of C65_complete. Clauses that do not mention the exchanged hyperparameter are not checked by the code, so a neighbour can violate them (C25)."
  }
 ]
}