# Formal model of ConfigSpace in Rocq: design

This file says what is modelled, how each property of `properties.jsonl` is stated
and proved, and what has to be trusted.  It was written before the proofs and is kept
up to date with them.

## 1. Approach

The model is a shallow embedding in Gallina.  Each Python function becomes one total,
computable Gallina function with the same branches; a raised exception becomes the value
`Err e`, where `e` names the exception class.  Loops over finite collections become
structural recursion, loops without an a priori bound (rejection sampling, depth
propagation, depth first search, grid work list) take fuel and return an explicit
`OutOfFuel` error when it runs out, so that no theorem is true because of a default value.
Random numbers are arguments (oracles): a theorem quantified over the oracle holds for
every stream of random numbers.

Mutable objects are handled as explicit state: `add` maps a space and an argument list to
the new space *and* the outcome, so the state after an exception is visible.  A reachable
space is one obtained from the empty space by a list of `add` calls.

Numbers.  `int` is `Z`.  Floating point numbers are rationals `Q` (plus NaN and the
infinities in vectors): theorems about arithmetic are statements about exact arithmetic.
Float.v models the scalers and the distribution of uniform integers a second time, with
IEEE 754 binary64 as formalised by Flocq, FloatLog.v the scalers with log and FloatCond.v the tests of conditions and clauses, FloatWeights.v the probabilities of weights; C98 to C107, C130 and C134 are about this model and say where
exact arithmetic and float64 agree.  `log`/`exp` are parameters with the laws
"mutually inverse, strictly increasing" (class `Env`), for which an instance over `Q` is
given, so that the laws are known to be consistent.

Strings.  Names are Coq `string`s compared bytewise (Python compares code points; UTF-8
byte order is the same order).

## 2. Layers (files under rocq/theories)

| file | content | models |
|---|---|---|
| Base.v | results, values, numbers with NaN, list helpers | builtins |
| Numeric.v | rounding, quantize, scale, chunked ranges | functional.py |
| HP.v | hyperparameters: construction, legality, transforms | hyperparameters/*.py |
| Dist.v | densities, neighbourhoods, sampling of one entry | distributions.py, hp_components.py, categorical.py |
| Cond.v | conditions: construction, equality, three evaluations | conditions.py |
| Forb.v | forbidden clauses: construction, equality, three evaluations | forbidden.py |
| Dag.v | condition graph, add/commit, derived tables | _condition_tree.py |
| Space.v | checks, change_hp_value, configuration objects, defaults, sampling, neighbours, grid, ... | configuration_space.py, configuration.py, util.py |
| Serial.v | dictionary codec | read_and_write/dictionary.py |
| Alias.v | condition and clause objects with the positions they store, shared between spaces | set_vector_idx in conditions.py and forbidden.py, DAG.update |
| Util.v | one-exchange neighbourhood | util.py |
| Random.v | get_random_neighbor | util.py |
| Repair.v | deactivate_inactive_hyperparameters | util.py |
| Grid.v | generate_grid | util.py |
| Serial.v | to_serialized_dict, from_serialized_dict, the encoders and decoders, equality of spaces, equality and text of configurations | dictionary.py, configuration_space.py |
| Priors.v | remove_hyperparameter_priors, substitution of hyperparameters | configuration_space.py |
| Subspace.v | add_configuration_space, with the objects it shares between source and target | configuration_space.py, conditions.py, forbidden.py |
| Api.v | ConfigurationSpace(space=...), to_integer, Integer, Float, Categorical | configuration_space.py, api/types/*.py, *_float.py |
| Cache.v | hyperparameter objects with cached densities, equality of such objects, Hyperparameter.copy | distributions.py, hyperparameter.py |
| Pcs.v | strings, the pyparsing grammar, write and read of the newer PCS format | read_and_write/pcs_new.py |
| PcsText.v | decimal texts for the examples | |
| PcsOld.v | write and read of the older PCS format | read_and_write/pcs.py |
| Put.v | add with nested arguments, generate_all_continuous_from_bounds | configuration_space.py |
| ToDict.v | to_dict of conditions and clauses | conditions.py, forbidden.py |
| Convert.v | to_float of integer hyperparameters, order of ordinals | uniform_integer.py, normal_integer.py, beta_integer.py, ordinal.py |
| Json.v | json.dump and json.load as used by to_json and from_json | configuration_space.py, read_and_write/json.py, CPython Lib/json |
| Array.v | lists and arrays of values: legal_value, to_vector, to_value, sample_value with a size, pdf_values | hyperparameter.py, categorical.py, ordinal.py, constant.py, hp_components.py |
| Float.v | float64 arithmetic (Flocq): scale, normalize, quantize, is_close_to_integer, UnitScaler without log, np.round(., 13), uniform integers: sampling, density, neighbours | functional.py, hp_components.py, distributions.py, configuration.py |
| FloatProofs.v, FloatRound.v | facts about float64 operations; rounding to 13 decimals on the reals | |
| FloatLog.v | UnitScaler with log in float64, np.log and np.exp as parameters; sampling integers with log | hp_components.py, functional.py, distributions.py |
| FloatWeights.v | weights, probabilities and default of a categorical in float64, and the choice numpy makes with them | categorical.py, distributions.py |
| FloatCond.v | tests of conditions and forbidden clauses on numbers and entries in float64 | conditions.py, forbidden.py |
| Old.v | has_neighbors, get_neighbors, check_configuration of a space, check_forbidden | hyperparameter.py, configuration_space.py, c_util.py |
| Bounds.v | lower_vectorized, upper_vectorized, vectorize_size and the truncated normal distribution |
| Seq.v | choices that are tuples or lists: constructors, legal_value, to_vector, to_value, ==, JSON; a list as a value |
| Life.v | configurations as objects: arrays with addresses, the remembered values, reads with IndexError, assignments, writes to arrays (configuration.py:44-270) |
| Fix.v | fix_types; str, int and float of Python are parameters | util.py |
| Spec.v | independent specification (valid configuration, graph reachability, ...) | nothing: English properties |
| Ex.v | a worked example space used beside the theorems | |
| *Proofs.v, *Facts.v, DagCycle.v, ForbEval.v | lemmas | |
| Properties_*.v | the theorems, one or more per property, with examples | |
| Assumptions.v | `Print Assumptions` of every property theorem | |

## 3. Properties

"Refuted" means that the full statement is false of the code; the theorem `..._refuted`
exhibits a witness in the model and `..._partial` proves the statement under a hypothesis
that excludes exactly the offending situations.

| id | how |
|---|---|
| C01 | invariant over histories: node list sorted by (depth, name) and depth(child) > depth(parent) |
| C02 | depth is determined by the edge set (C04), the sorted list by (depth, name) is unique |
| C03 | lemmas on `index_of` built from the sorted list |
| C04 | invariant of depth propagation: depth = 1 + longest path |
| C05 | soundness and completeness of the depth first search against an inductive path relation |
| C06 | case analysis of add_condition + invariant |
| C07 | invariant over histories |
| C08 | refuted (earlier hyperparameters stay; an edge closing a cycle stays); partial for failures before the first update |
| C09, C10 | invariants over histories |
| C11 | structural induction on conditions |
| C12 | refuted for `!=`; partial for the others |
| C13 | refuted for And/Or mixtures; partial for spaces using only And or only Or without repeated components (pigeonhole on positions), and for any space whose merged conditions agree |
| C14 | induction on the list of clauses, grouping lemma |
| C15, C16 | structural induction on clauses |
| C17 | `check` accepts iff `valid` (Spec.v); `Configuration(values)` composed with legality |
| C18 | from C34-C36 |
| C19 | case analysis |
| C20 | refuted (transitive dependants are missed); partial for spaces satisfying the stated order condition |
| C21 | induction along the node order |
| C22, C24 | induction on the fuel of the sampling loop, all oracles |
| C23 | refuted (order by shallowest parent, `!=`); partial under the order condition |
| C25 | refuted (only clauses mentioning the changed hyperparameter are checked); partial |
| C26 | induction over the update list |
| C27, C28 | refuted for disjunctions; partial when no condition is a disjunction |
| C29 | invariant of the work list |
| C30 | refuted (KeyError on conjunction with inactive parent); partial without conditions |
| C31 | counting injection into the product; refuted for the empty space |
| C32, C33 | case analysis / induction |
| C34-C36 | transforms, exact arithmetic |
| C37, C38 | case analysis of constructors |
| C39, C40 | refuted (relative tolerance); partial under a magnitude bound |
| C41 | case analysis, induction on the cumulated weights; refuted for normal/beta integers on a log scale |
| C42 | rational arithmetic with floor |
| C43, C45, C46 | loop invariant (entries on the grid, pairwise different); refuted for centres that are integers only up to the tolerance |
| C48, C49 | induction |
| C44, C47 | refuted for the discretised distributions; proved for uniform, categorical, ordinal, constant |
| C50, C51 | structural induction on what the encoders write |
| C52 | the decoded space is built from the listed parts of the first; both commits give the same layout (layout_unique); clause lists by stability of the sort |
| C55 | refuted for nested conjunctions; partial for flat ones: the result is built from the listed parts with uniform hyperparameters; layout_unique; default assignment as in C73 |
| C53 | a decoder always returns a dictionary without its type entry |
| C53 | refuted |
| C54 | refuted (renaming not injective, source mutated, second call); partial under a naming hypothesis: add of the renamed parts (C73), validity splits into the two parts; under a parent, roots get the condition, and a closed condition leaves nothing active (induction on depth) |
| C56 | refuted for len; the rest proved |
| C57 | structural induction |
| C58 | refuted (printed forms collide); partial when printed forms differ |
| C59 | refuted in the model with objects; partial for equal layouts: the model with objects then agrees with the model by name, by induction on histories |
| C60 | case analysis |
| C61 | unfolding of the constructors |
| C62 | loop invariant |
| C63 | case analysis, C43 |
| C64 | measure: neighbours left to yield; every turn yields one or closes an entry |
| C65 | trace of the run (ExchangeProofs.loop_trace): the proposals of an entry are a permutation of its neighbours, each popped once; refuted for integers with more values than requested |
| C66 | induction on rounds: the values of a round are those of the dictionary with one replaced; the rest by C17, C43 |
| C67 | refuted by a space where each neighbour activates an unset hyperparameter; flat spaces by C17 |
| C33 | values are only deleted, and deleting makes no condition or clause hold (holds_mono, violated_mono); so every intermediate configuration is accepted |
| C69 | invariant `covered`: each value to delete has a parent that will be popped; ends by weights of queue entries (each is at least one more than the sum of its children) |
| C29, C30, C70, C71 | invariant `good` of the points in the queue: distinct names, values of the grid, all roots, only active hyperparameters; a point that is not accepted is forbidden or can be extended by exactly the hyperparameters active given its values; any two points in the queue or among the results differ in a value both have |
| C60, C72 | induction over the hyperparameters; names are distinct, so each entry is touched once |
| C74 | refuted for repeated values and for vectors; the rest by induction on clauses, pigeonhole for memberships |
| C75 | refuted through C74 and reordered choices; the rest from equality of dictionaries and C74 |
| C76 | characterisation from C56; hash refuted for values of another type |
| C77 | case analysis of each constructor; ranges of rint, round13, clipping and the beta mode |
| C78 | refuted for keys of hyperparameters and mixed ranges; entries from C61 and C77, the space from C73, configurations from C17 |
| C79 | refuted for defaults and meta; exact condition from C77, result from C61 |
| C80 | from C61 and C77 |
| C81 | refuted for normal and beta integers; invariant on the cache |
| C82 | refuted for all hyperparameters: fields against parameters |
| C83 | refuted in general; grammar lemmas of PcsProofs.v line by line, add() total from C73, equal spaces from the lemmas of C52, accepted values from C17 |
| C84 | totality of each line; error of the first part that fails |
| C85 | clean() of a line does not see them |
| C86 | one step per character |
| C87 | refuted in general; as C83, with the grammar of pcs.py |
| C88 | totality of each line; the lines of clauses are those of the newer format up to the exception |
| C89 | the loop of both readers as three lists, one for each kind of line |
| C90 | put is a fold over the leaves; the first bad leaf stops it |
| C91 | the texts of naturals are distinct; sorted by name, hence the order for at most ten |
| C92 | C61 and C77 on the bounds of an integer one, then C79 for the way back |
| C93 | positions in a list without duplicates |
| C94 | scanner with fuel, sound and complete for an inductive grammar; the printer writes texts of the grammar; integers by the decimal numbers of the standard library |
| C95, C96, C97 | case analysis on the type numpy chooses; a number keeps its value under every conversion; entries of illegal numbers lie outside the unit interval or decode to no integer in the range |
| C29_refuted, C33_refuted, C66_refuted | the space of C13_refuted, by computation |
| C98, C99, C100, C101 | real arithmetic with the rounding errors of each operation (FloatProofs.v); a decoded number is nearer than 1/2 to the integer |
| C102 | the product of the rounded number with 10 ** 13 is at least as near to the integer as that of the given number; symmetry of rounding about numbers other than powers of two, and a separate argument for those (FloatRound.v) |
| C103 | sum of the four rounding errors, times 10 ** 13, below 1/2 |
| C104 | neighbouring integers up to 2^42 have logarithms at a distance of at least 2^-42, the scale between them has an error of 9 * 2^-48; refutation by counting: integers between 2^52 and 2^53 outnumber their logarithms |
| C105 | order from monotone log; relative error of exp of a number with a small absolute error; times 10 ** 13 below 1/2 |
| C106 | entries are strictly monotone where values come back (C98, C103, C104) |
| C107 | numbers with 13 decimals up to 64 are at least 8e-14 apart, twice the error of decoding is less; an integer above 64 is further away |
| C108 | case analysis; C14 for the clauses |
| C109 | induction along the vector (parents first) that a pruned column of draws encodes the assignment; then C14, C23; totality of each clause on encoded columns |
| C110 | exact preimage of a value under sample_vector: one integer, or an interval (floor of the normalised number), compared with pdf_value |
| C111 | by kind, from the unit scaler being increasing (unit_norm_range) and the grid of quantised samples |
| C112 | field arithmetic over Bounds.v; the refutation needs only log(1) = 0 |
| C113, C115 | induction over nested sequences: == is an equivalence and keeps hashability; first index in the list of choices |
| C114 | case analysis on the length of the list, then C95 |
| C116 | induction along the keys of the space: after each assignment the configuration agrees with the target so far (C20, locality of updates); refutation by an invariant of all assignments |
| C117 | induction on depth: an update only touches dependants |
| C118 | C64 (the run ends) and C65 (all neighbours are listed) give one move, ordinals walk index by index, then as C116 |
| C119 | every cache is a function of the nodes without their links and of the sorted clauses; these are the same for permuted contents; no modelled operation reads the links |
| C120 | induction over the looks: a read stores what it returned, nothing else |
| C121 | the position of a key is the number of keys before it in (depth, name); new unconditional hyperparameters have depth 1 |
| C122 | simulation: each object shows the same as a value; assignments only append arrays |
| C123 | the invariant of the DAG does not need a commit; it is kept by every prefix of the items; then as C119 and C73 |
| C124 | clauses leave the nodes, so all else; then by C14_accepts_iff and C17 |
| C125 | the dictionary that is passed on is the completed reading; then C68_allow_partial, C69 and C33_unique |
| C126 | hp_eqb case by case; for choices, inclusion in both directions with the pigeonhole principle; densities through seq_pdf |
| C127 | every decoder ends in a constructor; nested items by induction on the data; key order by a relation on data that ignores it; then C52 |
| C128 | each line ends in a constructor (C61); values of the older format are strings, so their hyperparameter is categorical; JSON by C127 |
| C129 | the dictionary of a clause is what the encoder writes up to the order of keys (C127_reordered), then C51 |
| C130 | relative errors of sums of nonnegative floats in any order (Plus_error of Flocq), then of each quotient |
| C131 | the round trips C34 to C36 and the densities of C47 |
| C132 | finite laws as lists of outcomes with rational probabilities; a column gives a valid configuration exactly if it agrees with it where it is set (C109, C23), so the sum over the other entries is one; geometric sum over columns |
| C133 | corollary of C132: the densities are one over the sizes (C110), so the product depends only on which hyperparameters are active |
| C134 | errors of lifting, quantizing and normalizing add up to less than what decoding tolerates; for the counterexample ln 14, ln(14 + 2^-49) and ln 100 are enclosed by partial sums of exp so that their roundings are known |
| C135 | induction on the rounds and on the columns of one: a kept column contributes its own factor and the rest is the same draw with one less needed, so the chance is a factor that depends on the rejections times the product |
| C136 | a condition of one part neither activates nor reads a hyperparameter of the other, so what is left of a column after pruning is, by induction on the depth, what is left of its part; the draws are rearranged by name and the sum over both parts factors |
| C137 | by induction on the depth, columns that differ in one entry are pruned alike apart from what depends on it; so the event that a column is kept, the hyperparameter is active and something holds elsewhere does not look at the entry, and the sum over the draws factors |
| C138 | from the trace of the run the exchanged value is a neighbour (C45, C46); the relation of neighbours is symmetric; completeness (C65) of the run from the yielded configuration |
| C139 | valid assignments that do not contradict each other are equal (C31), and the default is valid with default values (C21); joining by C73 |
| C140 | grid: completeness and soundness of the grid (C29, C30) for the three spaces and the split of validity (C136); neighbours: every yielded configuration is an exchange (C25), every admissible exchange is yielded (C65) |
| C141 | the tables for vectors and values are untouched by clauses (C124); grid: induction on the expansion, each completed dictionary gives the same vector or is refused by a new clause; sampling: one round is a filter of the pruned candidates; neighbours: C25 and C65 in both spaces |
| C142 | C132 in the three spaces; the density of an assignment of the result is the product over the hyperparameters of the target and the renamed ones of the source; the split of validity is C54_parent_partial, carried to any description of the result by C17 |
| C143 | invariant of the loop: of the points seen or waiting, an earlier one is lexicographically before a later one, or the later one has a value of a conditional hyperparameter; expanding a point only adds points of the second kind at the end |
| C144 | C29 and C30 in the three spaces with the split of validity of C54_parent_partial; the number by a bijection of positions, with C71 |
| C145 | the default configuration of the result is valid and takes defaults (C139), so its parts are valid (C54) and take defaults, and there is only one such assignment (C139) |
| C146 | the declarations of both results are found (C54), they are permutations of each other since the roots of a source do not depend on the target, so C119 applies |
| C147 | the exchange of C25 and C65 is split with the activity of the result: the target as before, the added part as in the source when the parent has the value and nothing otherwise |
| C73 | both directions: C05, C06, C21 of the result; totality of the update, then of the check of the defaults |
| C68 | case analysis of the check with the encodings of ValidProofs |

## 4. Not modelled

* IEEE 754 rounding and overflow except in Float.v, FloatLog.v, FloatCond.v and FloatWeights.v (scalers, uniform integers, tests of conditions and clauses, probabilities of weights);
  numpy dtypes except in Array.v (lists of values) and Seq.v (numbers beside sequences); speed, caching, warnings and messages of
  exceptions (only their classes).
* `yaml` (the text of YAML), custom keywords of `json.dump`/`json.load` other than indent, `__repr__`
  formatting except where used as a key.  Of pyparsing only what the grammars of `pcs_new.py`
  and `pcs.py` use is modelled (Pcs.v, PcsOld.v), by hand from its documentation.
* scipy distributions: densities and samples are parameters.
* User supplied `meta` objects are opaque strings.

## 5. Trusted base

Coq 8.16.1's kernel; the correspondence between the Python source and the definitions
(each definition cites the lines it models); the statements in Properties_*.v and Spec.v.
No axioms are added.  `Print Assumptions` (Assumptions.v, run at every build) answers "Closed under
the global context" for every theorem about C01 to C97, C108 to C129, C131 to C133 and C135 to C147.  The theorems about C98 to C107, C130 and C134 use the real
numbers of the standard library through Flocq; for them it lists exactly
`ClassicalDedekindReals.sig_not_dec`, `ClassicalDedekindReals.sig_forall_dec`,
`FunctionalExtensionality.functional_extensionality_dep` and `Classical_Prop.classic`, all of the
standard library.  For these theorems Flocq's definition of binary64 (IEEE754.BinarySingleNaN) is
trusted to be what numpy computes, and numpy's `rint`, `floor` and `round` to be as in Float.v.  C104 and C105 take np.log and np.exp as parameters and assume of them a
relative error of at most 2^-51 and, for C105, that log keeps the order; the assumptions are premises of
the theorems and hold of the correctly rounded functions (lemmas rounded_log, rounded_exp and
rounded_monotone).

Meaning.  Spec.v gives conditions and clauses a meaning on assignments of values
(`holds`, `violated`) independent of the vector encoding; the evaluation theorems relate the
three evaluations of the library to it.  `refs` is the hypothesis that conditions and clauses
refer to the hyperparameter objects of the space (the library compares names only).

Configurations.  `valid hs cs fs d` (Spec.v) is the meaning of "valid configuration": every value
legal, exactly the active hyperparameters set, no clause violated.  `made s hs c` are the
configurations that the API hands out (from values, from a vector whose entries decode, by item
assignment).  `tame` collects the guards that exclude the refuted situations: `merge_sound` (C13),
`ne_safe` (C12), comparable relations, `refs`.

Assignments.  `represents s hs c d` says that the vector of a configuration encodes the assignment
`d`; `updated` says what assignment `config[k] = w` should produce (C20): `k` set, newly active
hyperparameters at their defaults, inactive ones dropped.  `orderly` is the order condition: whenever
a condition reads a hyperparameter, the condition of that hyperparameter has a parent shallower than
all parents of the first.  PassProofs.v proves that one pass over the condition nodes then computes the
right activation, whatever the list passed over, provided it contains the dependants.

Sampling.  The random numbers are an arbitrary function `draw` from round, hyperparameter and column to
a vector entry, and the number of rounds is bounded by a fuel argument.  SampleProofs.v shows that a round
acts on each column separately: drop it if an unconditional clause is violated, switch off what is not
activated (`prune`), drop it if a conditional clause is violated.

Single hyperparameters.  `entry_of h w e` (Spec.v) says that `e` is the vector entry of the legal value
`w`.  Dist.v takes the random numbers as arguments: `raw` for one sampled entry, `nrng` for one
neighbourhood call (arrays of normal numbers, a shuffle, one bit), and the density function of scipy.
UniformIntegerDistribution.neighborhood and ScipyDiscreteDistribution are used by no hyperparameter
and not modelled; densities of more than 10^7 steps (quantiles of scipy) are `Unmodelled`.

One-exchange neighbourhoods.  Util.v models the generator as a function from fuel to the list of configurations yielded so far and
the way it ended.  `oracle` holds the random indices, the numbers behind each neighbourhood call and the effect of each shuffle.
ExchangeProofs.v follows a run by tagging each yielded configuration with the entry and the proposal it comes from.  `exchanged`
(Properties_Exchange.v) says what a yielded configuration should be.  The heuristic of util.py:223-225 (how many integers are drawn at
once) and the standard deviations only influence the random numbers and are not modelled.

Random neighbours.  Random.v models get_random_neighbor over the same `oracle`: `o_pick` are the drawn indices, `o_rng` the numbers behind
the single neighbourhoods.  The unbounded loop has fuel; running out of it stands for not having ended yet.

Histories.  `built` (Spec.v) describes spaces reached by add() calls of which the last succeeded; between the successful ones any number
may raise (`tried`), leaving what came before the refused item.  Calls refused because of a cycle, or of some but not all parents of a
condition, are not part of it: they leave broken links (C08_poisoned_refuted, C123_half_refuted).

Positions.  Conditions and clauses of the code read vector entries at positions stored in the objects; Cond.v and Forb.v read by
name.  Alias.v models the objects and AliasProofs.v proves that the two agree for a space whose objects were not added elsewhere
at other positions, and whose conditions have pairwise different texts.  Where two conditions have one text the code evaluates the
one that is not listed at the positions of an earlier update, or raises when there was none (C59_text_refuted); the other files
evaluate it by name.  This applies to every theorem over `built` spaces; the spaces with differing texts are `distinct_strings`.

Equality of clauses.  `x in list` of CPython 3.9 and later compares the element of the list on the left, so the two directions of
ForbiddenAndConjunction.__eq__ call the comparison of the parts in opposite directions; `forb_cmp` carries the direction along.
