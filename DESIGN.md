# Formal model of mlange-42/bbn in Coq 8.16.1

## 1. How the Go code is represented

| Go | Coq |
|---|---|
| panic / error return | `gores A := Ok a \| Err e \| Panic p`; every partial Go operation (slice access, nil dereference, `make` with negative size, explicit `panic`) is a `Panic` in the model, never a default value |
| `int` | `Z`, unbounded (simplification; the one place where 64-bit wrap is observable, the row product in `CreateFactor`, has its own model for C67) |
| `uint16` | `nat` with explicit truncation modulo 2^16 where Go converts |
| `float64` | the model is polymorphic in a record of number operations `NumOps`. Two instances: `xnum_ops` (exact rationals plus +Inf, -Inf, NaN with the IEEE rules for special values; no rounding, no overflow, no signed zero) and `ieee_ops` (bit-exact binary64 from `Coq.Floats.SpecFloat`, axiom-free) |
| slices | lists; writes are explicit updates. HeapVarModel, HeapVEModel and HeapNetModel model ve/, network.go and training.go a second time, with the `[]float64` slices as references to arrays in memory that several slices may share; C101 proves that the two models agree |
| maps | association lists in insertion order; `range` over a map goes through a `sched`, an arbitrary permutation per iteration. Theorems quantify over all schedules |
| pointers to factors in a network | index into the network's factor list, `None` for nil |
| global mutable logic operators | explicit store threaded through `Get`/`SetArgs`/`Table` |
| loops | `fold`/structural recursion, in the same order as the Go loop |

Theorems that say "any arithmetic" are about the polymorphic model and so hold for
float64. Theorems with exact sums, quotients or probabilities are about `xnum_ops`
with finite tables: they say what the algorithm computes before rounding.

## 2. Files

* `Num.v` numbers; `GoBase.v` result monad, slices, schedules.
* `VarModel.v` (ve/variable.go, ve/factor.go, ve/variables.go), `VEModel.v` (ve/ve.go),
  `NetModel.v` (network.go), `TrainModel.v` (training.go), `LogicModel.v` (logic/*.go),
  `TextModel.v`, `DocModel.v` (yml.go, xml.go), `CliModel.v`, `TuiModel.v` (internal/tui), `ShellModel.v` (cmd), all definitions only.
* `Spec*.v` independent specifications (truth formulas, brute-force enumeration of joint states, means, boxes).
* proof files, and `Props_*.v`: only theorem statements, each closed by `exact`, its
  `Print Assumptions`, and beside it an `Example` with a concrete non-trivial case meeting the hypotheses.

## 3. Plan per property

| id | model | proof |
|---|---|---|
| C01 | Index, Outcomes | induction on the variable list (mixed radix numerals) |
| C02 | increment | induction, lexicographic successor |
| C03 | RowIndex, Row | from C01 |
| C04 | Get, Set | injectivity of Index |
| C05 | IndexWithNoData | induction |
| C06 | CreateFactor, operation histories | invariant on the counter |
| C07-C11, C13, C14, C16 | table loops with explicit odometer | loop invariant + C01/C02 to a pointwise characterisation, any arithmetic |
| C12, C13 | Normalize(For) | exact arithmetic on top of the pointwise characterisation |
| C15, C18 | as is | refuted by a witness; what does hold proved |
| C17 | Invert | pointwise |
| C19, C20, C22 | whole VE pipeline with schedules | invariant: product of live factors summed over eliminated variables |
| C21 | VE pipeline on `ieee_ops` | refuted by a witness (two schedules, different bits) |
| C23 | sumUtilities | refuted by a witness |
| C24 | sortTopological | DFS invariant |
| C25, C65 | policies, stepwise and in one pass | exchange argument on the sum-product form; in one pass the solver state after each decision denotes the joint with the policies so far (VEPolicyAll.v), lifted to networks in NetPolicyAll.v |
| C26 | policies | refuted by a witness; single-decision case proved |
| C27-C30, C66 | Network.solve | refinement to brute-force enumeration |
| C31-C34, C38-C40 | Network API state machine | case analysis, frame lemmas |
| C35, C36 | New | case analysis; C36 refuted by a witness |
| C37 | Factor.Row | refuted by a witness; exact characterisation |
| C41-C43 | Trainer | invariant over sample histories: counters are counts; C42 (factor 2) and atomicity refuted |
| C44-C49 | logic tables | induction on number of parents against truth formulas; C47/C48 partly refuted |
| C50 | operator store | invariant over histories; interleaving refuted by a witness |
| C51-C53 | document-level YAML/XML | structural round trip; info/color loss refuted |
| C54, C55 | as is (CliModel.v) | arithmetic / list induction |
| C56 | TrainNetwork on the lines split by encoding/csv | reduction of a file to the samples of C41-C43; C57: refuted, marker parsed as number; C63: refuted, New drops the marker |
| C58-C61 | TUI state machine with nodes, canvas, table dialog and saving (TuiModel.v) | invariant over event sequences; mouse case refuted by a session, other digits refuted for all states |
| C62 | tui.Solve | on top of C27, C66; specification `displayed` in SpecTui.v |
| C71-C73 | same state machine | consequences of the invariant and of one step |
| C74 | pictures of nodes as grids of characters | drawing functions as layers; specification `node_char` in SpecApp.v; long utilities refuted |
| C75 | lines between nodes as lists of marked cells | `arc_drawn` in SpecScreen.v: connected cells, box characters that join their neighbours, arrow pointing to the child; route per case of relative position (TuiRoutes.v) |
| C76 | the text with color tags, as tokens | interpretation of tags `text_colors` in SpecScreen.v; exact description by induction over lines (TuiHues.v); refuted by a one-node network |
| C77 | selection and events of the app | `new_selection` in SpecApp.v gives the selection after each event; by cases, with frame lemmas for drawing and solving (TuiKeys.v); refuted for overlapping nodes |
| C78 | pages, end and file of the app | `new_page` and `still_running` in SpecApp.v; by cases (TuiKeys.v) |
| C79 | the lines printed by bbn inference, as runes | `prints_node` in SpecShell.v, on top of C62 |
| C80 | bbn train | composition of C56 and C51, generalised to trained tables (`round_trip_tables` in DocRound.v) |
| C81 | FromFile with filepath.Ext | induction over the path from its end |
| C82 | bbni up to the first event | on top of C62 and the start of the app |
| C83 | the whole query on `ieee_ops` | each operation rounds relatively (Flocq's theorems about binary64); induction over the elimination with a bound for the relative error and for the range of all tables; the exact values are those of the exact model on the same numbers |
| C84 | two runs on `ieee_ops` | from C83 |
| C85 | training on `ieee_ops` | counting by ones is exact below 2^53, division is correctly rounded (Flocq); the counts depend only on the number of matching samples |
| C86 | two networks from `net_new` on permuted lists | answers and expected values are sums over joint states of products; both are invariant under permutation |
| C87 | two decision networks, one observing more | every policy of the one is a policy of the other with the same expected value; C70 |
| C88 | two decision networks with rescaled utility tables | expected values are linear in utilities, and the weights of all states under any policies sum to one |
| C89 | two networks from `net_new`, one with one more node | the sum over the further node of its table row is one |
| C90 | one network, the graph given by tables and stored policies | nodes below the query are summed out to one; the rest factors into the table row and a constant |
| C91 | one network, separation as a split of the moral graph of the ancestors | nodes that do not matter are summed out to one; the rest factors into one part for each side |
| C92 | one query | the factor left by the elimination is the sum over the other variables of the joint (C16); the names of its axes are those of the query |
| C93 | two or three calls with growing evidence | each answer is a posterior (C27); the masses of the evidence split by outcome |
| C94 | SolvePolicies, then two calls of SolveUtility | each step of the solver (C65) leaves a policy that no strategy for the remaining decisions beats; a strategy that forces the situation and changes one row compares two options |
| C68, C70 | SolvePolicies followed by queries | stored policies equal the returned tables; C27, C40 on the solved network |
| C69 | toVE | refuted for every well-formed network with one table replaced |
| C64, C67 | truncation | refuted by witnesses; safe range proved |
| C95 | FromYAML, then SolveQuery | the operator's table (C44-C48) has a one where the node has the operator's outcome, so only such states have weight |
| C96 | SolveUtility on `ieee_ops` | as C83, with signed values: each float64 factor is tracked with its exact function and with the function of absolute values; the tables of utilities, weights and their sum are exact shadows of the exact model |
| C97 | ToYAML, FromYAML, all calls on networks, bbn train, bbn inference, Ctrl-S | the read network and the original agree after dropping names of the network, info, positions and colors (`bare`); every call commutes with `bare`, by induction over the loops of the model |
| C98 | SolvePolicies on `ieee_ops` | each float64 policy 1/k has an exact counterpart 1/k; one step of the solver computes signed sums with bounded error (as C96), so the chosen options are within the error of the best; a step changes the expected value by at most twice the error, by induction over the steps; `C98_tie` is an example where rounding changes the choice |
| C99 | `decode`, `runes_of` and the uses in the commands and the app | specification by the encoding function; each accepted sequence is shown to be the encoding of a character and conversely, by arithmetic on the bits; induction on the length of the string; combined with C74, C79, C80 and C82 |
| C100 | SolveQuery on `ieee_ops` | computation of a network with 165 observations, with a proof that the evidence is possible; the positive part from C83 |
| C101 | a model of ve/, network.go and training.go with slices as references to arrays in memory; programs that call methods and write to their slices | simulation of the value model, operation by operation, with the invariant that arrays of the network are not written |
| C102 | the same | old arrays are a prefix of the memory after each operation; training writes only to table arrays |
| C103 | two networks in one memory | a concrete pair of networks with shared tables; invariant of separate networks for the positive part |
| C104 | the probability of the samples in a network (SpecLikelihood.v); training as in C41 | relative frequencies maximise a product of probabilities (inequality of means, LikelihoodSums.v), table by table |
| C105 | the network after any list of calls | invariant: a solver exists and the table of names is the same up to node types; a network that was solved once never fails to build a solver |
| C106 | two networks related by a dictionary of names and permutations of nodes, tables, parents and outcomes | a bijection between the joint states of both; weights agree state by state, so all sums do |
| C107 | two networks whose decisions have the same outcomes first, then further ones | every combination of policies extends to the wider network with the same expected utility: the further outcomes get probability zero |
| C108 | two networks that differ in the entries of utility tables | for each combination of policies the weights of all states sum to one, so the expected utility moves between the weighted sums; then maxima are compared |
| C109 | three networks that differ in one probability table, one between the others | the weight of each state, so of every event, is the weighted mean; a quotient of means lies between the quotients |
| C110 | three networks as in C109, with decisions | the expected utility of fixed policies is linear in the table; a maximum of linear functions is convex |
| C111 | two networks with proportional joint weights | answers are quotients of sums of weights, a constant factor cancels |
| C112 | a network and the same one with an arc reversed | the product of the two normalised tables is the same in every state; then C111 |
| C113 | two networks, the joint weights of one being sums of those of the other | masses of events are sums of joint weights, split by the state of the coarse network |
| C114 | a network and the same one without a node, its child with the summed table | the new network is a summary of the old one; then C113 |
| C115 | a network and the same one with outcomes of one variable put together | the new network is a summary of the old one; then C113 |
| C116 | a network and the same one with one more leaf, which is observed | the joint weight of the larger network is the old one times the table of the leaf; masses split by the outcomes of X |
| C117 | sequences of trainer calls and network calls (SpecTrainer.v) | the counters only depend on the samples; every row of every table is overwritten or left as in the original network, so updating twice is updating once; induction over the calls |
| C118 | as C117 | refuted with a concrete network; C118_solve_again_partial from C117 and C33 |
| C119 | two networks that differ in their tables, and samples with the frequencies of the one (SpecRecover.v) | counts of samples are sums over joint outcomes, so multiples of masses; the local Markov property turns their quotients into table rows; C111 gives the answers |
| C120 | training as in C41-C43 | all sums and counters are multiplied by the number of copies; UpdateNetwork depends on quotients only |
| C121 | two networks that differ in one table (SpecFix.v: `retabled`) | the node and all nodes below it can be summed out last, and each sums to one; what remains is the same in both |
| C122 | a network and the one with the table of one node fixed (SpecFix.v: `fixed_at`, `observe`) | for known parents the old table is a constant factor, which cancels; the sum over the states of the parents, whose probabilities are the same by C121 |
| C123 | two networks with tables within factors (SpecNear.v: `near`, `total_ratio`) | each product of conditional probabilities is within R, so are all sums of them; an answer is a quotient of two sums; the same policy has expected utilities within R in both networks |
| C124 | two networks with zeros at the same places (SpecNear.v: `same_zeros`) | sums of non-negative products are zero if and only if all products are, and products if and only if one factor is |
| C125 | rows as parts of arrays in memory (HeapRowModel.v), programs that write to them (SpecHeapRow.v: `editor`) | a write keeps the correspondence of memory and value model, with the entry replaced in the latter; then as C101 |
| C126 | SolvePolicies and SolveUtility (NetModel.v); further options as in C107 (SpecOptions.v: `more_options`) | the returned policy, restricted to the old options, is a policy of the smaller network and has the same value there |
| C127 | the reader of CSV text (CsvModel.v) on bytes; the ways to write a table (SpecCsv.v: `file_text`) | induction over the characters of quoted fields, over fields and over lines; UTF-8 separators do not overlap with themselves; parity of quotes by induction over the steps of the reader |
| C128 | SolvePolicies and SolveUtility (NetModel.v); dominance in SpecDominated.v: `dominated`, `last_decision`, `only_dominated` | a policy is changed to choose the dominating option in place of the dominated one, which does not lower its value (sum over the decision taken last); then as C126 |
| C129 | SolvePolicies (NetModel.v); dominance in SpecDominated.v: `strictly_dominated` | a recommended option is best in the situation (C94); the sum over the states that agree with the situation is strictly smaller for the dominated option unless all weights are zero |
| C130 | SolveUtility and SolveQuery (NetModel.v); SpecTower.v: `valued`, `evidence_prob` | both calls give sums over states (C27, C22); the sum is split by the outcomes of the node |
| C131 | FromYAML, FromBIFXML (DocModel.v), bbn inference and bbn train (ShellModel.v); SpecFormats.v: `same_node`, `same_document` | XML input of New is the YAML input without colors; New and training commute with removing colors; answers do not depend on colors (C97) |
| C132 | New, SolvePolicies, SolveUtility (NetModel.v); SpecLeaf.v: `leaf_added` | the rows of the new table sum to one, so the expected utility of all policies is the same; policies of both networks are the same; New links the other nodes in the same way |
| C133 | SolvePolicies (NetModel.v); SpecSpare.v: `spare_added` | the policy of the new decision sums to one, so the expected utility is that of the other policies; refuted for SolvePolicies by computation |

## 4. What is modelled and what is not

Modelled function by function:

| Go file | model |
|---|---|
| ve/variable.go, ve/factor.go, ve/variables.go | VarModel.v |
| ve/ve.go | VEModel.v |
| network.go | NetModel.v |
| training.go | TrainModel.v |
| ve/variables.go, ve/ve.go, network.go, training.go with shared arrays | HeapVarModel.v, HeapVEModel.v, HeapNetModel.v (structs, variable lists and samples are values there too; a slice is a whole array) |
| network.go (Factor.Row), ve/factor.go (Row), which return a part of an array | HeapRowModel.v |
| logic/*.go | LogicModel.v |
| yml.go, xml.go (the decoded documents) | TextModel.v, DocModel.v |
| internal/tui/bounds.go, training.go, util.go | CliModel.v |
| internal/tui/app.go, color.go, input.go, node.go, render.go, solve.go, symbols.go, table.go | TuiModel.v |
| internal/tui/training.go (reading CSV text with encoding/csv, whose source is not in /repo) | CsvModel.v |
| network.go (FromFile), cmd/bbn/inference.go, cmd/bbn/train.go, cmd/bbni/main.go | ShellModel.v |

Not modelled: the text syntax of YAML and XML files (documents start at the decoded structure); the widgets of
the terminal library (the text given to them is modelled, and what they do with it is not, except that color tags
change the color of what follows); the wiring of the command line by cobra; error message texts (only which
error); running time and memory limits. Simplifications of single definitions are stated in their comments.

## 5. Trusted base

* The kernel of Coq 8.16.1 and the definitions of its standard library.
* That the definitions in the model files say what the Go code does; each cites the lines it models. As a check on this,
  Conform_VE.v and Conform_Net.v run the model on the inputs of every Go unit test in /repo (all `*_test.go` files except
  benchmarks and tests that are commented out there) and compare with the values those tests assert, in float64 numbers where
  the tests do and with two orders of map iteration. These examples are tests of the model and count for no property.
* For every theorem in MANIFEST.json except those of C83, C84, C96 and C98, `C85_correctly_rounded` and `C100_in_range_partial`, `Print Assumptions` says "Closed under the global
  context": no axioms. The command stands after each theorem in the Props files, so that the build log shows it.
* The theorems of C83, C84, C96 and C98, `C85_correctly_rounded` and `C100_in_range_partial` use the standard library's real numbers, through Flocq's theorems about rounding. For
  them `Print Assumptions` lists these axioms of the standard library and no others:
  `ClassicalDedekindReals.sig_not_dec`, `ClassicalDedekindReals.sig_forall_dec`,
  `FunctionalExtensionality.functional_extensionality_dep` and `Classical_Prop.classic`. Flocq itself adds no axioms
  (its file about primitive floats is not used). `coqchk` in addition lists the constants of the sealed modules
  `Coq.Reals.Rdefinitions.RbaseSymbolsImpl`, `RinvImpl` and `Coq.ssr.ssrunder.Under_rel` of the standard library, which have
  definitions there. The statements of the theorems mention rationals only.
* Theorems stated for exact numbers (`xnum`) speak of float64 numbers without rounding. `special_values` (XnumIEEE.v) proves that
  infinities, NaN and division by zero behave alike in both; C83, C84, C96 and C98 bound what rounding changes.
* No theorem depends on `native_compute`; `vm_compute`, which is part of the kernel, is used for examples and
  witnesses.

## 6. Where the code does not do what the property says

Properties that are false of the code have a theorem with the suffix `_refuted`, and theorems about what does hold.

* **C15** (`C15_rearrange_accepts_duplicates_refuted`): the full statement is false of the code: a list repeating a variable is accepted; proved: Rearrange panics exactly for wrong lengths and foreign variables, and which table it returns for every other list (`C15_rearrange_exact`)
* **C18** (`C18_duplicate_ids_accepted_refuted`): the statement is false of the code: AddVariable never records ids, so a duplicate is accepted after every history
* **C21** (`C21_reproducible_refuted`): the statement is false of the code: with float64 the product of 0.1, 0.2 and 0.3 depends on the map iteration order; in exact arithmetic it holds (C20)
* **C23** (`C23_many_outcomes_refuted`): false of the code when a utility variable has several outcomes; proved for single-outcome utilities with one factor each; for any outcomes, `C23_any_outcomes` gives the total that is returned instead
* **C26** (`C26_foreign_parent_refuted`): false of the code with two unconnected decisions; proved: only declared parents and other decisions are mentioned
* **C32** (`C32_query_evidence_panics_refuted`): false of the code: asking for an observed or unmentioned variable panics; otherwise no panic
* **C36** (`C36_cycle_accepted_refuted`): false of the code: New does not check for cycles
* **C37** (`C37_row_refuted`, `C37_write_refuted`): false of the code for tables with several columns; first row and one-column tables hold
* **C42** (`C42_mean_utility_refuted`): The full statement is false of the code: AddSample increments the counter twice for utility nodes, so UpdateNetwork stores half the mean. Proved: exactly half the mean in the first column, zero elsewhere.
* **C43** (`C43_unchanged_on_error_refuted`): Error exactly when some row has no usable sample, no panics (any numbers). Unchanged tables after an error is false of the code: nodes before the failing one are already updated. `C43_after_error` gives every table after an error: rows visited before the first one without usable samples are trained, all others unchanged.
* **C47** (`C47_given_refuted`, `C47_index_out_of_range_refuted`): Refuted: the index counts from the last parent (witness: 2 parents, index 0); an index beyond the parents is accepted and always true, a negative one panics. Proved: the parent at position given-1-index is tested.
* **C48** (`C48_outcome_greater_refuted`): outcome-greater is refuted: it is also true for the index itself; the other four operators are proved for all indices in range.
* **C49** (`C49_many_parents_refuted`, `C49_negative_outcomes_refuted`): Proved for every operator, all arguments accepted by SetArgs and up to 63 parents, when the given number of outcomes of the parent is not negative. Refuted for 64 parents and more (empty table, no error) and for negative numbers of outcomes that wrap around.
* **C50** (`C50_concurrent_refuted`): Proved for uninterrupted use after any history of calls; refuted for two parsers running concurrently, because Get returns shared mutable objects.
* **C51** (`C51_info_and_colors_refuted`): At the level of the decoded document. Proved for every network made by New whose variables have outcomes and factors with full rows: name, types, outcomes, positions, parents, tables and total utility survive, after any other documents were loaded. Info and colors are lost by ToYAML (refuted).
* **C52** (`C52_never_panics_refuted`): For every decoded document, after any other documents were loaded. Proved: correct nodes give the factors, each kind of mistake gives an error, and nothing else can happen except an operator that panics for its arguments (refuted: outcome-is with an index out of range).
* **C53** (`C53_missing_definition_refuted`): For every decoded document and every number parser. Proved when each variable has a definition; a variable without definition panics (refuted).
* **C57** (`C57_missing_utility_refuted`): False of the code: the marker is parsed as a number, so there is an error for every network and file (proved). Missing utilities are skipped if the marker itself parses as not-a-number.
* **C58** (`C58_mouse_refuted`, `C58_digits_refuted`): Every solvable network with drawable nodes, every event sequence. Proved for the keyboard with ASCII digits, and the exact set of crashing events; false with the mouse (refuted by a session) and for digits of other scripts.
* **C60** (`C60_twice_refuted`): After every event sequence. Choosing twice restores the evidence unless the node had another outcome as evidence, which is always lost (refuted).
* **C63** (`C63_marker_used_refuted`): False of the code: New drops the marker, so training always uses the empty string (proved for all markers and files).
* **C64** (`C64_many_outcomes_refuted`): false of the code from 65536 outcomes on; holds below
* **C67** (`C67_size_overflow_refuted`): false of the code for 2^64 joint outcomes (row count wraps to 0); proved exact below 2^63
* **C69** (`C69_wrong_length_refuted`): False of the code: New accepts the table and every solve panics. Proved for every well-formed network with one table replaced by one of any wrong length.
* **C74** (`C74_long_refuted`): Proved for every cell in every reachable state if utilities have at most seven digits before the point; longer utilities leave characters of earlier numbers on the screen (refuted by a session).
* **C76** (`C76_border_refuted`): Refuted for nodes at the left border of the screen (only the first line of a colored node at both borders has its color); proved for every reachable state without nodes at the left border, and the colors of all cells are characterised exactly.
* **C77** (`C77_click_refuted`): Refuted where nodes overlap: the last node is shown, but a click selects the first one. Proved: the exact selection after every event in every reachable state; a click selects the node shown if it is the only one at the point.
* **C100** (`C100_possible_evidence_refuted`): With many observations the probability of the evidence underflows, all entries of the joint table are 0, and normalising gives NaN although the evidence is possible. Proved while numbers stay in range.
* **C103** (`C103_self_contained_refuted`, `C103_caller_tables_refuted`): New keeps the slices that it is given. Two networks made from the same tables share them, so that training the one changes the answers of the other, and a caller can change answers by writing to a table after New. Networks that use different tables are proved independent.
* **C104** (`C104_missing_refuted`): with missing outcomes, training does not maximise the probability of the samples. Each table only counts the samples that know its variable and its parents. C104 itself is stated for complete samples and proved.
* **C118** (`C118_stale_policies_refuted`): UpdateNetwork keeps stored policies, so that answers after training follow policies for the old tables until SolvePolicies is called again. Proved: SolvePolicies after any history with training gives the policies of the network trained at once.
* **C133** (`C133_refuted`): SolvePolicies panics if a decision is no parent of any other node, although such a decision does not matter and New accepts the network. Proved: the expected utilities that can be had are those of the network without the decision.
