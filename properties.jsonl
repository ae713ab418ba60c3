{"id": "C01", "title": "Factor indexing is a bijection", "statement": "For a factor over any list of variables, Index maps every tuple of in-range outcomes to a position in [0, len(Data)), Outcomes(Index(t)) = t for every in-range tuple t, and Index(Outcomes(i)) = i for every i in [0, len(Data)). A tuple of the wrong length panics.", "quantifier": "every list of variables with any outcome counts, every in-range outcome tuple, every flat position", "why_tests_cant": "The space of variable lists and tuples is unbounded; tests check two or three fixed shapes.", "anchors": ["ve/factor.go: Factor.Index, Factor.Outcomes, factorVariables.Index, factorVariables.Outcomes"]}
{"id": "C02", "title": "Odometer enumeration matches flat order", "statement": "Starting from the all-zero index and repeatedly incrementing, the i-th visited tuple is exactly the outcome tuple of flat position i; the increment reports overflow exactly after the last position and then wraps to all zeros. Every table-walking operation relies on this.", "quantifier": "every list of variables, every number of steps", "why_tests_cant": "It is an induction over all shapes and all positions.", "anchors": ["ve/factor.go: factorVariables.increment, factorVariables.Outcomes"]}
{"id": "C03", "title": "Row access returns the block of the last variable", "statement": "ve.Factor.RowIndex/Row for outcomes of all but the last variable returns exactly the values Get would return for that context and each outcome of the last variable, in order.", "quantifier": "every factor with at least one variable, every in-range context", "why_tests_cant": "Unbounded shapes and contexts.", "anchors": ["ve/factor.go: Factor.RowIndex, Factor.Row, Factor.Get"]}
{"id": "C04", "title": "Get reads back what Set wrote, and nothing else changes", "statement": "After Set(t, x), Get(t) = x and Get(t') is unchanged for every in-range t' different from t.", "quantifier": "every factor, every pair of in-range tuples, every value", "why_tests_cant": "Aliasing of distinct tuples to one cell would only show on particular shapes.", "anchors": ["ve/factor.go: Factor.Get, Factor.Set"]}
{"id": "C05", "title": "Missing data is recognised", "statement": "IndexWithNoData answers false exactly when some outcome is -1, and otherwise returns the same position as Index.", "quantifier": "every factor and every tuple of the right length whose entries are -1 or in range", "why_tests_cant": "Unbounded number and placement of missing entries.", "anchors": ["ve/factor.go: Factor.IndexWithNoData, factorVariables.IndexWithNoData"]}
{"id": "C06", "title": "CreateFactor accepts exactly matching data and hands out fresh ids", "statement": "CreateFactor succeeds exactly when data is nil or its length is the product of the outcome counts (nil giving all zeros). All factors produced by one Variables instance over any history of operations have pairwise distinct ids.", "quantifier": "every list of variables, every data slice, every history of factor operations on one Variables instance", "why_tests_cant": "A history property; tests perform a handful of operations.", "anchors": ["ve/variables.go: Variables.CreateFactor", "ve/factor.go: Factor.Id"]}
{"id": "C07", "title": "Restrict selects the observed slice", "statement": "Restrict(f, v, o) is a factor over f's other variables in the same order, and its value at every tuple is f's value with v set to o. It panics exactly when v is not in f or o is out of range.", "quantifier": "every factor with distinct variables, every variable, every observation, every tuple", "why_tests_cant": "All shapes, positions of the variable and tuples.", "anchors": ["ve/variables.go: Variables.Restrict"]}
{"id": "C08", "title": "SumOut marginalises one variable", "statement": "SumOut(f, v) is a factor over f's other variables in the same order whose value at every tuple is the sum over all outcomes of v of f's values, accumulated in outcome order starting from zero. It panics exactly when v is not in f.", "quantifier": "every factor with distinct variables, every variable, every tuple, any arithmetic including IEEE-754 float64", "why_tests_cant": "All shapes and tuples.", "anchors": ["ve/variables.go: Variables.SumOut"]}
{"id": "C09", "title": "Product is the pointwise product over the union of variables", "statement": "Product(f1..fn) is a factor over the union of the variables (first-occurrence order) whose value at every joint assignment is the product of the factors' values at the assignment's projections; with no factors it is the scalar 1, with one factor it is a copy.", "quantifier": "every list of factors (any number, any overlapping scopes), every joint assignment", "why_tests_cant": "Unbounded number of factors and overlap patterns.", "anchors": ["ve/variables.go: Variables.Product"]}
{"id": "C10", "title": "Sum is the pointwise sum over the union of variables", "statement": "Sum(f1..fn) is a factor over the union of the variables whose value at every joint assignment is the sum of the factors' values at the projections; with no factors it is the scalar 0.", "quantifier": "every list of factors, every joint assignment", "why_tests_cant": "Unbounded number of factors and overlap patterns.", "anchors": ["ve/variables.go: Variables.Sum"]}
{"id": "C11", "title": "Marginal sums over everything else", "statement": "Marginal(f, v) is a factor over v alone whose value at outcome k is the sum of f over all tuples with v = k.", "quantifier": "every factor with distinct variables, every contained variable, every outcome", "why_tests_cant": "All shapes.", "anchors": ["ve/variables.go: Variables.Marginal"]}
{"id": "C12", "title": "Normalize yields a distribution proportional to its input", "statement": "If a finite factor's values sum to a non-zero number, Normalize returns the same variables and the values divided by that sum, adding up to 1. If the sum is zero, no error is reported: zero entries become NaN.", "quantifier": "every factor with finite values", "why_tests_cant": "All table sizes and values; the zero-sum branch is not tested.", "anchors": ["ve/variables.go: Variables.Normalize"]}
{"id": "C13", "title": "NormalizeFor normalises every row for the chosen variable", "statement": "NormalizeFor(f, v) moves v to the last position keeping the other variables in order; each block of v's outcomes is f's block divided by its sum, so it adds up to 1, except that blocks with sum zero are left unchanged.", "quantifier": "every finite factor with distinct variables, every contained variable, every context", "why_tests_cant": "All shapes, positions and rows.", "anchors": ["ve/variables.go: Variables.NormalizeFor"]}
{"id": "C14", "title": "Rearrange only permutes", "statement": "For any permutation of the factor's variables, Rearrange gives a factor with that variable order and, for every joint assignment, exactly the same value; rearranging back restores the data bit for bit.", "quantifier": "every factor with distinct variables, every permutation, any number type", "why_tests_cant": "Factorially many permutations of unboundedly many shapes.", "anchors": ["ve/variables.go: Variables.Rearrange"]}
{"id": "C15", "title": "Rearrange rejects variable lists that are not permutations", "statement": "Rearrange panics when the given variable list is not a permutation of the factor's variables.", "quantifier": "every factor and every variable list", "why_tests_cant": "Negative space: all non-permutations.", "anchors": ["ve/variables.go: Variables.Rearrange"]}
{"id": "C16", "title": "Policy is uniform over the maximisers", "statement": "Policy(f, d) puts d last, keeps the other variables in order, and in every context assigns 1/m to each of the m outcomes of d with maximal value and 0 to all others; each context therefore sums to 1.", "quantifier": "every finite factor with distinct variables containing d with at least one outcome, every context", "why_tests_cant": "All shapes, ties and positions.", "anchors": ["ve/variables.go: Variables.Policy"]}
{"id": "C17", "title": "Invert is the pointwise reciprocal", "statement": "Invert(f) keeps the variables and replaces every value x by 1/x (+Inf for zero); inverting a factor without zeros twice is the identity in exact arithmetic.", "quantifier": "every factor", "why_tests_cant": "All values, including zero.", "anchors": ["ve/variables.go: Variables.Invert"]}
{"id": "C18", "title": "AddVariable rejects duplicate ids", "statement": "AddVariable panics when a variable with the same id was already added to the Variables instance.", "quantifier": "every history of AddVariable calls", "why_tests_cant": "A history property; no test adds a duplicate.", "anchors": ["ve/variables.go: Variables.AddVariable"]}
{"id": "C19", "title": "Variable elimination computes the exact sum-product", "statement": "VE.SolveQuery(evidence, query) returns a factor whose value at every assignment equals the sum, over all outcomes of the eliminated (hidden) variables, of the product of all non-utility factors with the evidence plugged in.", "quantifier": "every set of finite factors, every evidence list, every query list, every elimination order the heuristics produce, every map iteration order", "why_tests_cant": "Unbounded networks and queries; tests cover a few three-node nets.", "anchors": ["ve/ve.go: VE.SolveQuery, VE.solve, eliminateEvidence, removeUtilities, eliminateHidden, removeHidden, multiplyAll"]}
{"id": "C20", "title": "Query answers do not depend on map iteration order", "statement": "In exact arithmetic, two runs of VE.SolveQuery/SolveUtility on the same inputs with different Go map iteration orders return the same function of the assignments (variable order of the result may differ), hence the same marginals.", "quantifier": "every pair of map iteration schedules, every network, evidence and query", "why_tests_cant": "Go randomises map iteration; a test run sees one schedule.", "anchors": ["ve/ve.go: VE.factors (map), removeHidden, multiplyAll, sumUtilities, restrictEvidence"]}
{"id": "C21", "title": "Query answers are bitwise reproducible", "statement": "Two runs of SolveQuery on the same float64 inputs return bit-identical probabilities.", "quantifier": "every pair of map iteration schedules, float64 arithmetic", "why_tests_cant": "Depends on scheduling of map iteration and rounding; tests compare with tolerance or easy numbers.", "anchors": ["ve/ve.go: VE.factors (map), multiplyAll", "ve/variables.go: Variables.Product"]}
{"id": "C22", "title": "SolveUtility computes (weighted) expected utility", "statement": "VE.SolveUtility with no utility variable returns, for every assignment of the remaining variables, the sum over hidden variables of the product of all probability factors times the weighted sum of all utilities (weight 1 when weights are nil); with a utility variable given, only that utility enters and is not weighted.", "quantifier": "every set of finite factors, utilities with a single outcome, every evidence and query, every weight vector, every map iteration order", "why_tests_cant": "Unbounded networks.", "anchors": ["ve/ve.go: VE.SolveUtility, sumUtilities, removeUtilities"]}
{"id": "C23", "title": "Total utility is the weighted sum for utility nodes with any number of outcomes", "statement": "The total utility equals the weighted sum of the individual utilities as reported by per-node SolveUtility, whatever the outcome counts of the utility variables.", "quantifier": "every set of utility factors including utility variables with several outcomes", "why_tests_cant": "The anomaly needs utility nodes with more than one outcome and more than one utility node.", "anchors": ["ve/ve.go: sumUtilities", "ve/variables.go: Sum, SumOut"]}
{"id": "C24", "title": "Decisions are solved in an order that respects information arcs", "statement": "The decision order used by SolvePolicies lists every decision exactly once, and a decision that is a parent of another comes before it; it always terminates.", "quantifier": "every acyclic set of decision dependencies, every declaration order, every map iteration order", "why_tests_cant": "All graphs.", "anchors": ["ve/ve.go: getDecisions, sortTopological, sortTopologicalRecursive"]}
{"id": "C25", "title": "Policies of single-decision networks maximise expected utility", "statement": "In a network with one decision, no policy (function from observed parents to outcomes) has higher expected total utility than the policy SolvePolicies returns.", "quantifier": "every acyclic network with one decision, every competing policy, every map iteration order", "why_tests_cant": "Quantifies over all competing policies and all networks.", "anchors": ["ve/ve.go: SolvePolicies, solvePolicies, findDecisionFactors", "ve/variables.go: Policy"]}
{"id": "C26", "title": "A policy depends only on the decision's declared parents", "statement": "The policy returned for a decision is conditioned only on variables listed as its parents.", "quantifier": "every network", "why_tests_cant": "Only visible for multi-decision networks without information arcs.", "anchors": ["ve/ve.go: findDecisionFactors, solvePolicies", "network.go: Network.SolvePolicies"]}
{"id": "C27", "title": "SolveQuery returns the exact posterior", "statement": "Network.SolveQuery(evidence, query) returns for each query variable the conditional distribution P(q | evidence) of the joint distribution given by the product of the row-normalised tables (and solved policies): entries non-negative, summing to 1, equal to brute-force enumeration over all joint states.", "quantifier": "every well-formed network with non-negative tables, every valid evidence of positive probability, every query list disjoint from the evidence, every map iteration order", "why_tests_cant": "All networks, evidences and queries; tests use a few fixed nets.", "anchors": ["network.go: Network.SolveQuery, solve, toVE, Marginal, Normalize"]}
{"id": "C28", "title": "Impossible evidence yields NaN, not an error", "statement": "If the evidence has probability zero, SolveQuery returns no error and NaN for every outcome of every query variable.", "quantifier": "every network and every evidence of probability zero", "why_tests_cant": "Needs all zero-probability evidences.", "anchors": ["network.go: Network.SolveQuery", "ve/variables.go: Variables.Normalize"]}
{"id": "C29", "title": "Probability mass is one", "statement": "For an acyclic network in which every table row has positive sum, solving with empty query and no evidence gives exactly 1, and with evidence gives P(evidence), a number in [0,1].", "quantifier": "every acyclic network with positive row sums, every evidence", "why_tests_cant": "Induction over all DAGs.", "anchors": ["network.go: Network.SolveQuery", "internal/tui/solve.go: solveQueries (totalProb)"]}
{"id": "C30", "title": "Scaling a table row does not change answers", "statement": "Multiplying a row of a chance table by a positive constant (e.g. percentages instead of probabilities) leaves every SolveQuery answer unchanged.", "quantifier": "every network, every row, every positive constant, every query", "why_tests_cant": "All constants and rows.", "anchors": ["network.go: toVE", "ve/variables.go: NormalizeFor"]}
{"id": "C31", "title": "Bad evidence or query names are reported as errors", "statement": "SolveQuery and SolveUtility return an error, never panic and never a result, when an evidence variable, evidence outcome, query variable or utility variable does not exist.", "quantifier": "every network, evidence map and query containing at least one bad name", "why_tests_cant": "All combinations of bad and good names and evidence iteration orders.", "anchors": ["network.go: Network.solve"]}
{"id": "C32", "title": "Querying an evidence variable", "statement": "SolveQuery does not panic when a query variable is also evidence.", "quantifier": "every network, evidence and query", "why_tests_cant": "Needs the overlap case.", "anchors": ["network.go: Network.SolveQuery, Marginal", "ve/variables.go: Variables.Marginal"]}
{"id": "C33", "title": "Solving is history independent", "statement": "The answer of SolveQuery/SolveUtility depends only on the network and the result of the latest successful SolvePolicies, not on earlier queries; repeated SolvePolicies calls give the same policies.", "quantifier": "every history of API calls on one network", "why_tests_cant": "All call histories.", "anchors": ["network.go: Network.solve, SolvePolicies, toVE"]}
{"id": "C34", "title": "Ignoring policies turns decision evidence into interventions", "statement": "With ignorePolicies, the policy of a decision with evidence is left out, so results are those of the network with that decision fixed from outside; policies of other decisions still apply.", "quantifier": "every network with solved policies, every evidence", "why_tests_cant": "All evidence combinations.", "anchors": ["network.go: solve, toVE, policyFactors"]}
{"id": "C35", "title": "Network construction validates names and utility structure", "statement": "New succeeds only if variable names are unique, parents of every used factor exist, each utility node has only utility or only non-utility parents and at least one, and at most one node collects utilities, having as many outcomes as parents. The reported total utility index is that node's index or -1.", "quantifier": "every list of variables and factors", "why_tests_cant": "All inputs.", "anchors": ["network.go: New, prepareVariables, prepareUtilityNodes, TotalUtilityIndex"]}
{"id": "C36", "title": "Network construction rejects cyclic graphs", "statement": "New returns an error when the parent relation is cyclic.", "quantifier": "every network", "why_tests_cant": "All cyclic graphs; the changelog promises a consistent check.", "anchors": ["network.go: New, prepareVariables", "CHANGELOG.md"]}
{"id": "C37", "title": "bbn.Factor.Row returns the CPT row of a parent configuration", "statement": "Row(indices) returns the table entries P(For = k | parents = indices) for k = 0..columns-1, and false if some index is missing (-1).", "quantifier": "every factor, every parent configuration", "why_tests_cant": "Only the internal row number is tested, on one shape.", "anchors": ["network.go: Factor.Row, Factor.rowIndex"]}
{"id": "C38", "title": "ToEvidence is the one-hot vector", "statement": "After a solve, ToEvidence(v, o) returns the vector with 1 at o's position and 0 elsewhere, or an error if v or o does not exist.", "quantifier": "every network, variable and outcome", "why_tests_cant": "All names.", "anchors": ["network.go: ToEvidence"]}
{"id": "C39", "title": "Rearrange by name puts the listed variables first and the last one last", "statement": "Network.Rearrange(f, names) orders the factor's variables as: all listed names but the last, then the unlisted variables in their old order, then the last listed name; values of every joint assignment are unchanged.", "quantifier": "every solved factor and every duplicate-free non-empty list of its variable names", "why_tests_cant": "All lists and factors.", "anchors": ["network.go: Rearrange, rearrangeVariables, variableIndex"]}
{"id": "C40", "title": "Total utility nodes weight the utilities", "statement": "With a node whose parents are utility nodes, each utility enters the total with the table entry at the position of that parent; a utility node missing from its parents is an error.", "quantifier": "every network with a total utility node", "why_tests_cant": "All parent orders.", "anchors": ["network.go: prepareUtilityWeights, toVE"]}
{"id": "C41", "title": "Training yields relative frequencies", "statement": "After any sequence of complete or partially missing samples, UpdateNetwork sets every entry of a chance node's table to (number of samples with that parent configuration and outcome) / (number of samples with that parent configuration and a known outcome); the order of samples is irrelevant.", "quantifier": "every network, every multiset of samples, every order", "why_tests_cant": "All sample sequences.", "anchors": ["training.go: NewTrainer, AddSample, UpdateNetwork"]}
{"id": "C42", "title": "Trained utilities are sample means", "statement": "After training, every entry of a utility node's table is the mean of the utilities observed for that parent configuration.", "quantifier": "every network with utility nodes, every sequence of samples", "why_tests_cant": "The existing test only looks at the policy, which is scale invariant.", "anchors": ["training.go: AddSample, UpdateNetwork"]}
{"id": "C43", "title": "Training without samples for a row is an error that leaves the network unchanged", "statement": "UpdateNetwork returns an error exactly when some table row of some node got no usable sample, and then the network's tables are unchanged.", "quantifier": "every network, every sequence of samples", "why_tests_cant": "All missing-row patterns; partial updates only show on particular node orders.", "anchors": ["training.go: UpdateNetwork"]}
{"id": "C44", "title": "Logic connectives implement their truth tables", "statement": "not, and, or, xor, cond, bicond, equals and their negated variants produce, for every combination of parent truth values (outcome 0 = true), the table row [1,0] if the documented formula holds and [0,1] otherwise; if-then variants give the documented certain row or [0.5,0.5]. A wrong number of parents is an error.", "quantifier": "every connective, every parent count, every combination of truth values", "why_tests_cant": "The documented formula against every row of every connective; tests check five of them.", "anchors": ["logic/simple.go: all constructors, boolFactor.Table, floatFactor.Table", "logic/factor.go: Get"]}
{"id": "C45", "title": "Counting operators count true parents", "statement": "count-true/count-false give probability 1 to the number of true/false parents; count-is, count-less, count-greater give [1,0] exactly when the number of true parents is equal to, less than, greater than the argument.", "quantifier": "every number of parents, every combination of truth values, every argument", "why_tests_cant": "Tests check three parents only.", "anchors": ["logic/count.go"]}
{"id": "C46", "title": "bits converts parents to an integer", "statement": "bits gives probability 1 to the integer whose binary digits are the parents' truth values, first parent most significant.", "quantifier": "every number of parents, every combination of truth values", "why_tests_cant": "Tests check three parents only.", "anchors": ["logic/bits.go"]}
{"id": "C47", "title": "given selects the parent at the given index", "statement": "Given(i)/GivenNot(i)/GivenExcl(i) test, respectively, that the i-th parent is true, that it is false, that it is the only true parent.", "quantifier": "every number of parents, every index, every combination of truth values", "why_tests_cant": "The test uses the middle one of three parents, where index direction is invisible.", "anchors": ["logic/given.go"]}
{"id": "C48", "title": "Outcome tests compare the parent's outcome index", "statement": "outcome-is, outcome-is-not, outcome-either, outcome-less, outcome-greater give [1,0] exactly when the parent's outcome index is equal to, different from, among, less than, greater than the given index (indices), else [0,1].", "quantifier": "every outcome count, every index, every parent outcome", "why_tests_cant": "Tests check one argument each and encode the implementation's boundary.", "anchors": ["logic/outcome.go"]}
{"id": "C49", "title": "Every logic table is a valid CPT", "statement": "Whenever Table(n) returns a table, its length is the number of parent configurations times the number of outcomes of the node, entries are in {0, 0.5, 1} and each row sums to 1.", "quantifier": "every logic operator, every argument list accepted by SetArgs without panic, every parent count", "why_tests_cant": "All operators and sizes.", "anchors": ["logic/*.go: Table"]}
{"id": "C50", "title": "Logic operators fetched by name do not leak state between nodes", "statement": "For any sequence of nodes parsed one after the other, the table built for a node depends only on that node's operator and arguments.", "quantifier": "every history of Get/SetArgs/Table uses, including two parsers running concurrently", "why_tests_cant": "Operators are shared global objects mutated by SetArgs; sequential histories and interleavings are unbounded.", "anchors": ["logic/factor.go: Get, factors", "yml.go: toTable"]}
{"id": "C51", "title": "YAML round trip preserves the network", "statement": "Loading the document produced by ToYAML gives a network with the same name, info, variables (names, types, outcomes, positions, colors), parents and tables.", "quantifier": "every network whose tables are complete, at the level of the YAML document structure", "why_tests_cant": "All networks; the test compares one text and re-queries it.", "anchors": ["yml.go: ToYAML, FromYAML, toTable"]}
{"id": "C52", "title": "A node cannot have both a table and logic", "statement": "FromYAML returns an error for a node with both table and logic, an unknown operator, non-integer or wrongly many arguments, or an unknown node type, and otherwise builds the factor from the flattened table or the operator's table.", "quantifier": "every YAML document", "why_tests_cant": "All combinations.", "anchors": ["yml.go: FromYAML, toTable"]}
{"id": "C53", "title": "BIF-XML loading", "statement": "FromBIFXML builds for each VARIABLE its factor from the DEFINITION with the same FOR; documents with wrong table length (not a multiple of the outcome count), malformed numbers or positions or unknown types give an error, never a panic.", "quantifier": "every XML document, at the level of the decoded structure", "why_tests_cant": "All documents; the test loads one file.", "anchors": ["xml.go: FromBIFXML, parsePosition"]}
{"id": "C54", "title": "Bounds.Extend is the smallest enclosing box", "statement": "Extending bounds by another box yields a box containing exactly the cells of the smallest rectangle covering both; it is the least such box and the order of extensions does not matter.", "quantifier": "all boxes with non-negative size, all sequences of extensions", "why_tests_cant": "All coordinates.", "anchors": ["internal/tui/bounds.go: Extend, Contains"]}
{"id": "C55", "title": "Command line evidence parsing", "statement": "ParseEvidence maps key=value entries to the evidence map (last entry wins) and returns an error exactly when some entry does not contain exactly one '='.", "quantifier": "every list of strings", "why_tests_cant": "All strings.", "anchors": ["internal/tui/util.go: ParseEvidence"]}
{"id": "C56", "title": "CSV column order and missing values", "statement": "Training from a CSV does not depend on the order of the columns; a value equal to the no-data marker counts as missing; unknown outcomes, missing columns and no-data markers colliding with outcomes are errors.", "quantifier": "every node list, header permutation and record list", "why_tests_cant": "All permutations and records.", "anchors": ["internal/tui/training.go: prepare, TrainNetwork"]}
{"id": "C57", "title": "Missing utility values in CSV are skipped", "statement": "A utility column value equal to the no-data marker is treated as missing rather than an error.", "quantifier": "every record", "why_tests_cant": "Needs missing utility data.", "anchors": ["internal/tui/training.go: TrainNetwork", "training.go: AddSample"]}
{"id": "C58", "title": "The selected outcome is always valid", "statement": "In the terminal app, after any sequence of keyboard and mouse events, the selected outcome index is within the selected node's outcomes, so pressing Enter never crashes.", "quantifier": "every sequence of input events, every network", "why_tests_cant": "All event sequences.", "anchors": ["internal/tui/input.go: inputMainPanel, mouseInputGraph, inputEnter, selectNextNode, selectPreviousNode, selectNodeOutcome"]}
{"id": "C59", "title": "Rendering stays on the canvas", "statement": "For nodes with non-negative positions, after any sequence of moves, drawing all nodes and edges never writes outside the canvas.", "quantifier": "every layout with non-negative positions, every parent relation, every sequence of node moves", "why_tests_cant": "All layouts and move sequences.", "anchors": ["internal/tui/render.go", "internal/tui/app.go: createCanvas", "internal/tui/input.go: moveNode"]}
{"id": "C60", "title": "Toggling evidence twice is the identity", "statement": "Selecting an outcome as evidence and selecting it again restores the evidence; utility nodes never become evidence; at most one outcome per node is evidence and it is one of the node's outcomes.", "quantifier": "every sequence of selections", "why_tests_cant": "All sequences.", "anchors": ["internal/tui/input.go: inputEnter"]}
{"id": "C61", "title": "The table view labels rows consistently", "statement": "In the table dialog the parent labels shown in a row are exactly the parent configuration whose probabilities the row shows.", "quantifier": "every node, every row and column", "why_tests_cant": "All shapes.", "anchors": ["internal/tui/table.go: GetCell, GetRowCount"]}
{"id": "C62", "title": "Displayed marginals and utilities", "statement": "tui.Solve returns for evidence nodes the one-hot vector, for every other chance/decision node its posterior, for utility nodes the conditional expected utility given the evidence, and for a total utility node the weighted utilities followed by their total.", "quantifier": "every network with solved policies, every evidence of positive probability", "why_tests_cant": "All networks.", "anchors": ["internal/tui/solve.go: Solve, solveEvidence, solveQueries, solveUtility"]}
{"id": "C63", "title": "The no-data option reaches training in the terminal app", "statement": "The no-data marker given to the terminal app is used when training from the given file.", "quantifier": "every marker", "why_tests_cant": "No test constructs the app.", "anchors": ["internal/tui/app.go: New, Run", "cmd/bbni/main.go"]}
{"id": "C64", "title": "Large outcome counts are preserved", "statement": "A variable with n outcomes is handled as having n outcomes during solving.", "quantifier": "every outcome count", "why_tests_cant": "Counts are truncated to 16 bits; tests use small counts.", "anchors": ["network.go: toVE", "ve/variables.go: AddVariable"]}
{"id": "C65", "title": "Sequential policies are optimal", "statement": "In a network with several decisions where each decision observes all earlier decisions and their observations (no forgetting), the policies returned by SolvePolicies, stepwise or in one pass, together maximise expected total utility over all policy combinations.", "quantifier": "every acyclic no-forgetting network, every competing policy combination", "why_tests_cant": "Quantifies over all policy combinations.", "anchors": ["network.go: SolvePolicies", "ve/ve.go: SolvePolicies"]}
{"id": "C66", "title": "NormalizeUtility gives conditional expected utility", "statement": "Dividing the utility factor by the probability factor for the same query gives, at every query assignment of positive probability, the expected utility given query and evidence.", "quantifier": "every network, query and evidence", "why_tests_cant": "All networks.", "anchors": ["network.go: NormalizeUtility", "ve/variables.go: Invert, Product"]}
{"id": "C67", "title": "Factor sizes never overflow silently", "statement": "CreateFactor never produces a factor with fewer values than the product of its variables' outcome counts.", "quantifier": "every list of variables, 64-bit int arithmetic", "why_tests_cant": "Needs tables beyond 2^63 entries.", "anchors": ["ve/variables.go: CreateFactor"]}
{"id": "C68", "title": "Queries follow the returned policies", "statement": "After SolvePolicies, decisions act in queries as random variables distributed by the returned tables: SolveQuery returns posteriors of the joint distribution of the probability tables and the returned policy tables, except those of observed decisions if policies are ignored.", "quantifier": "every acyclic no-forgetting network, evidence of positive probability and query", "why_tests_cant": "The stored policies are internal; tests compare single numbers.", "anchors": ["network.go: SolvePolicies, SolveQuery, policyFactors"]}
{"id": "C69", "title": "Tables of the wrong length are errors", "statement": "A factor whose table does not have one entry per combination of outcomes is reported as an error by New or by solving, not by a panic.", "quantifier": "every network, every factor and every table of the wrong length", "why_tests_cant": "Tests use correct tables.", "anchors": ["network.go: New, toVE", "ve/variables.go: CreateFactor"]}
{"id": "C70", "title": "SolveUtility reports the maximum expected utility", "statement": "After SolvePolicies, SolveUtility without query and evidence returns a single number: the expected total utility of the returned policies, which no combination of policies exceeds.", "quantifier": "every acyclic no-forgetting network, every competing policy combination", "why_tests_cant": "Quantifies over all policy combinations.", "anchors": ["network.go: SolvePolicies, SolveUtility"]}
{"id": "C71", "title": "The numbers in the app depend only on the evidence", "statement": "In the terminal app, the numbers shown depend on the evidence and on whether policies are ignored, not on the events that led there; only the key p changes whether policies are ignored.", "quantifier": "every network, every two event sequences that lead to the same evidence", "why_tests_cant": "Compares all pairs of event sequences.", "anchors": ["internal/tui/input.go", "internal/tui/solve.go: Solve"]}
{"id": "C72", "title": "Only the selected node moves", "statement": "The app starts with the nodes at the positions in the network; each event leaves every node where it is, except that the move keys shift the selected node by one cell, not over the left and upper border.", "quantifier": "every network, every event sequence", "why_tests_cant": "All event sequences and layouts.", "anchors": ["internal/tui/input.go: moveNode", "internal/tui/app.go"]}
{"id": "C73", "title": "Saving writes the loaded network with the shown layout", "statement": "Ctrl-S in the app writes the document of the network that was loaded, with the positions at which the nodes are shown; solved policies and evidence do not get into the file.", "quantifier": "every network, every event sequence before saving", "why_tests_cant": "All event sequences.", "anchors": ["internal/tui/input.go: inputSave", "yaml.go: ToYAML"]}
{"id": "C74", "title": "The screen shows the current numbers", "statement": "In the app, every cell of the screen covered by a node shows the character of the topmost node there: border (double for the selected node), name, and per outcome its label, a bar of ten cells and the number for the current evidence, rounded to three decimals; nothing of earlier pictures remains.", "quantifier": "every network, every event sequence, every cell of the screen", "why_tests_cant": "All event sequences, all layouts and all numbers.", "anchors": ["internal/tui/node.go: NewNode, Render, drawBars, drawUtility, drawBorder, drawTitle", "internal/tui/render.go"]}
{"id": "C75", "title": "The screen shows the arcs of the network", "statement": "In the app, wherever no node covers the screen, it shows for every arc of the network (for decisions: of their computed policy) a connected line that leaves the box of the parent and ends in an arrow pointing to the box of the child, and nothing else.", "quantifier": "every network, every event sequence, every cell of the screen", "why_tests_cant": "All layouts, including touching and overlapping nodes.", "anchors": ["internal/tui/render.go: renderEdges, renderEdge, renderEdgeVertical, renderEdgeHorizontal, renderEdgeCorner"]}
{"id": "C76", "title": "Nodes are shown in their colors", "statement": "In the app, every cell of a node is shown in the color given for the node in the network file, or by default in white, green or blue for chance, utility and decision nodes; all other cells are shown in the default color.", "quantifier": "every network, every event sequence, every cell of the screen", "why_tests_cant": "All layouts; the color of a cell depends on all text before it.", "anchors": ["internal/tui/render.go: renderNodes, updateCanvas", "internal/tui/color.go", "internal/tui/node.go: NewNode"]}
{"id": "C77", "title": "Keys and clicks select what is shown", "statement": "In the app, Tab and Backtab go round the nodes in the order of the file, the space key goes round the outcomes of the selected node, a digit selects the outcome with that number if there is one, and a click selects the node (and the outcome) shown at this point; no other event changes the selection.", "quantifier": "every network, every event sequence", "why_tests_cant": "All event sequences and layouts.", "anchors": ["internal/tui/input.go: inputMainPanel, selectNextNode, selectPreviousNode, selectNodeOutcome, mouseInput", "internal/tui/node.go: SelectedOutcome"]}
{"id": "C78", "title": "Dialogs shield the network", "statement": "In the app, keys open the dialogs they are documented to open, Esc, Enter and clicks close them, no event changes anything else while a dialog is shown, only Esc on the graph ends the program, and only Ctrl-S on the graph writes the file.", "quantifier": "every network, every event sequence", "why_tests_cant": "All event sequences.", "anchors": ["internal/tui/input.go", "internal/tui/app.go: Run"]}
{"id": "C79", "title": "bbn inference prints the posteriors", "statement": "The command bbn inference prints two lines for each node in the order of the file: the names of the outcomes, and below them in the same columns the posterior probabilities in percent (for utility nodes: expected utilities) given the evidence, rounded to three decimals, with a mark at the nodes with evidence.", "quantifier": "every network file, every list of evidence", "why_tests_cant": "All networks and all evidence; columns depend on the length of all names and numbers.", "anchors": ["cmd/bbn/inference.go: inferenceCommand, runInferenceCommand"]}
{"id": "C80", "title": "bbn train writes a network that can be read again", "statement": "Whenever the command bbn train prints a document, the network, the delimiter and the data were valid, and reading the document gives the network of the file with the tables learned from the data: relative frequencies for chance nodes and no table for decisions. Otherwise there is an error.", "quantifier": "every network file, data file, delimiter and no-data value", "why_tests_cant": "All networks and data files.", "anchors": ["cmd/bbn/train.go: trainCommand", "internal/tui/training.go: TrainNetwork", "yml.go: ToYAML, FromYAML"]}
{"id": "C81", "title": "The file extension selects the format", "statement": "FromFile reads files with the extension .yml as YAML, and with the extension .xml or .bifxml as XML, in small or capital letters; all other files, and files that can not be read, give an error.", "quantifier": "every path", "why_tests_cant": "All paths, with dots and slashes in any place.", "anchors": ["network.go: FromFile"]}
{"id": "C82", "title": "bbni starts with the numbers that bbn inference prints", "statement": "The program bbni reads the network of the file, trains it if a training file is given, and starts with the given evidence and the same numbers as bbn inference for this network; mistakes in the arguments give an error.", "quantifier": "every network file, training file, delimiter and list of evidence", "why_tests_cant": "All combinations of arguments.", "anchors": ["cmd/bbni/main.go: rootCommand", "internal/tui/app.go: New, Run"]}
{"id": "C83", "title": "float64 probabilities are accurate", "statement": "SolveQuery with float64 numbers returns, for every order of map iteration, finite probabilities that are not negative, add up to one, and equal the exact posterior probabilities, up to a relative error of 2^-52 times a number of roundings that grows with the sum of the numbers of outcomes of the nodes and the size of the result, not with the number of joint states; with impossible evidence all are NaN.", "quantifier": "every network whose numbers keep away from underflow and overflow, all evidence, all queries, all map orders", "why_tests_cant": "Rounding errors depend on all numbers and on the order of all operations; tests compare single cases with a tolerance.", "anchors": ["network.go: SolveQuery, Marginal, Normalize, toVE", "ve/ve.go: SolveQuery", "ve/variables.go: Product, SumOut, Restrict, Normalize"]}
{"id": "C84", "title": "Repeating a query gives the same probabilities up to rounding", "statement": "Two runs of the same query on the same network, which visit maps in different orders, return float64 probabilities that differ at most by the sum of their two error bounds.", "quantifier": "every network as in C83, all evidence, all queries, all pairs of map orders", "why_tests_cant": "The order of map iteration is random and can not be set by a test.", "anchors": ["network.go: SolveQuery", "ve/ve.go: SolveQuery, product"]}
{"id": "C85", "title": "Trained float64 probabilities are correctly rounded", "statement": "With fewer than 2^53 samples, every probability that Train sets is the float64 nearest to the exact relative frequency. For any number of samples, the order of the samples changes neither whether training succeeds nor any bit of the probabilities.", "quantifier": "every network, every list of valid samples and every order of it", "why_tests_cant": "Counts are float64 sums; tests use a few samples and tolerances.", "anchors": ["training.go: AddSample, UpdateNetwork"]}
{"id": "C86", "title": "The order of nodes and tables does not matter", "statement": "Listing the same nodes and the same tables in another order gives a network that New accepts too, in which every query has the same answer and the maximum expected utility is the same.", "quantifier": "every network input, all permutations of nodes and of tables, all queries and evidence, all map orders", "why_tests_cant": "The order decides positions, identifiers and elimination order; tests list nodes in one order.", "anchors": ["network.go: New, SolveQuery, SolvePolicies, SolveUtility, prepareVariables"]}
{"id": "C87", "title": "Information never hurts", "statement": "If decisions observe more nodes, all else the same, the expected utility that SolveUtility returns after SolvePolicies is the same or higher.", "quantifier": "every pair of decision networks that differ in what decisions observe, in which decisions are ordered and nothing is forgotten", "why_tests_cant": "Compares optimal values over all policies of two networks.", "anchors": ["network.go: SolvePolicies, SolveUtility", "ve/ve.go: SolvePolicies, SolveUtility"]}
{"id": "C88", "title": "Units of utilities do not change decisions", "statement": "Changing all utilities from x to a * x + b, with a positive a, changes the maximum expected utility in the same way, and the policies that SolvePolicies finds then are optimal for the old utilities too.", "quantifier": "every decision network, all positive factors and all shifts", "why_tests_cant": "All utility tables and scales.", "anchors": ["network.go: SolvePolicies, SolveUtility", "ve/ve.go: SolvePolicies"]}
{"id": "C89", "title": "Adding a node that nothing depends on changes no answer", "statement": "Adding a chance node with a table, at any place in the list of nodes, changes no answer to queries about the other nodes if it is not a parent of any of them.", "quantifier": "every network, all further nodes and tables, all queries and evidence about the old nodes", "why_tests_cant": "Two networks and all queries.", "anchors": ["network.go: New, SolveQuery"]}
{"id": "C90", "title": "With known parents the answer is the row of the table", "statement": "If all parents of a node are in the evidence, and no node that depends on it, SolveQuery returns the row of its table for these parents, for any further evidence; for a solved decision it returns its policy.", "quantifier": "every network without cycles, every node, all evidence with its parents and without nodes below it", "why_tests_cant": "All graphs, tables and evidence.", "anchors": ["network.go: SolveQuery", "ve/ve.go: SolveQuery"]}
{"id": "C91", "title": "Evidence that is separated does not change an answer", "statement": "If the evidence separates a node from other nodes in the graph (d-separation), evidence on the other nodes does not change the answer for the node.", "quantifier": "every network without cycles, all separated sets of nodes, all evidence", "why_tests_cant": "All graphs, all paths in them, all tables.", "anchors": ["network.go: SolveQuery", "ve/ve.go: SolveQuery"]}
{"id": "C92", "title": "The returned factor is the joint distribution of the query", "statement": "The factor SolveQuery returns has one axis for each queried node, and its entries are the probabilities of the evidence together with each combination of outcomes; Normalize turns them into the joint posterior probabilities.", "quantifier": "every solved network, all evidence, all queries, also with repeated nodes and in any order", "why_tests_cant": "All networks, all combinations of outcomes.", "anchors": ["network.go: SolveQuery, Normalize", "ve/ve.go: SolveQuery"]}
{"id": "C93", "title": "Answers of different calls fit together", "statement": "Answers of SolveQuery for different evidence obey Bayes' rule and the law of total probability, and observing an outcome that has probability one already changes no answer.", "quantifier": "every network, all pairs of nodes, all outcomes, all evidence", "why_tests_cant": "Relations between several calls, each with another elimination.", "anchors": ["network.go: SolveQuery", "ve/ve.go: SolveQuery"]}
{"id": "C94", "title": "Recommended options are best in every situation", "statement": "If the table that SolvePolicies returns gives an option of a decision a positive probability in a situation (outcomes for all it observes), then SolveUtility with this situation and the option as evidence, ignoring policies, returns at least as much as for every other option; also in situations that the best earlier decisions never lead to.", "quantifier": "every decision network in which decisions are ordered and nothing is forgotten, every decision, every situation, every pair of options, stepwise or not", "why_tests_cant": "All networks, policies of several decisions at once, and situations that do not occur under the policies.", "anchors": ["network.go: SolvePolicies, SolveUtility", "ve/ve.go: SolvePolicies, SolveUtility"]}
{"id": "C95", "title": "Nodes with a logic operator behave like the formula", "statement": "For a node that a YAML document gives a logic operator instead of a table, SolveQuery returns for each outcome the probability that the operator gives this outcome for the node's parents; observing the node has the effect of learning this about the parents; a condition (if-then and the like) makes its consequence certain when its premise is observed, and its premise impossible when its consequence is observed to be false.", "quantifier": "every document with operators, arguments and parents of the right kind, whatever documents were loaded before, all evidence", "why_tests_cant": "All documents, operators, numbers of parents and evidence.", "anchors": ["yml.go: FromYAML, toTable", "logic/factor.go: Get", "logic/simple.go, logic/count.go, logic/bits.go, logic/given.go, logic/outcome.go: Table", "network.go: SolveQuery"]}
{"id": "C96", "title": "SolveUtility with float64 is accurate", "statement": "For a network whose float64 numbers stay in a stated range, SolveUtility succeeds for the total utility and for a single utility node, whatever the order of map iteration. Every entry of the returned table differs from the exact sum of probability times (weighted) utility by at most k * 2^-52 times the same sum taken with absolute values. k is a stated number of roundings that only depends on the network. For a solved network and an empty query the table holds one number, close to the exact expected utility. Two calls with different map orders agree up to twice the error.", "quantifier": "all networks of float64 numbers in range (utilities of any sign), all evidence, all queries, all map iteration orders", "why_tests_cant": "tests compare a few utilities with a tolerance; they say nothing about other networks, about cancellation between positive and negative utilities or about other iteration orders", "anchors": ["network.go: SolveUtility", "ve/ve.go: SolveUtility", "ve/variables.go: Product, Sum, SumOut"]}
{"id": "C97", "title": "A network that is saved and loaded again gives the same answers", "statement": "If a network is written with ToYAML and read with FromYAML, then every call on the read network (SolveQuery, SolveUtility, SolvePolicies, Normalize, NormalizeUtility, Marginal, Rearrange, ToEvidence), after any sequence of earlier calls, returns exactly what it returns on the original network, with the same errors. So does the document that bbn train prints, compared to the trained network in memory, and the document that Ctrl-S saves in the terminal application, in which the nodes are where the user put them. bbn inference prints the same lines for the original file and for the file written from it.", "quantifier": "all networks made by New with factors in the order of the nodes (all networks from files) whose nodes have outcomes and tables with full rows; all call sequences, all evidence, all earlier documents, all map orders that depend on positions only; in any arithmetic, so also with float64", "why_tests_cant": "tests compare the fields of a few networks after a round trip, not the answers of later calls", "anchors": ["yml.go: ToYAML, FromYAML", "network.go: New, SolveQuery, SolveUtility, SolvePolicies", "cmd/bbn/train.go", "cmd/bbn/inference.go", "internal/tui/input.go: saveNetwork"]}
{"id": "C98", "title": "Policies computed with float64 are nearly the best", "statement": "SolvePolicies(true) on a network of float64 numbers succeeds and returns a table for each decision and for nothing else. The entries of a table are the float64 numbers closest to an even choice among the options with non-zero entries, given some of what the decision observes; each row recommends at least one option. With exact arithmetic on the same numbers, no combination of policies, randomised or not, has an expected utility that exceeds that of the returned recommendations by more than 2 times the number of decisions times the number of roundings times 2^-52, relative to the largest magnitude of utilities. Calls that visit maps in different orders return policies whose expected utilities differ by at most that. For a single decision the same holds without stepwise.", "quantifier": "all float64 decision networks without forgetting, any number of decisions, whose numbers stay in range (explicit bounds on exponents); all competing policies; all map orders", "why_tests_cant": "tests compare policies of a few networks where one option is clearly better; rounding matters when options are close, and there are infinitely many networks and competing policies", "anchors": ["network.go: SolvePolicies", "ve/ve.go: SolvePolicies, solvePolicies", "ve/variables.go: Policy"]}
{"id": "C99", "title": "Text is handled character by character", "statement": "Names, outcomes and delimiters may use any Unicode characters. A string is read as the characters it encodes in UTF-8, with U+FFFD for each byte at which no character starts. The --delim argument of bbn train and bbni must be a single character, of any number of bytes, and that character separates the fields. bbn inference aligns its columns by characters: names up to 30 and outcomes up to 10 characters. In bbni the title of a chance node shows the characters of its name one per cell, and the node is wide enough for up to 48 of them.", "quantifier": "all strings, valid UTF-8 or not; all networks, evidence, event sequences and positions in the title", "why_tests_cant": "tests use a few ASCII names; the ways to encode and to break a text are unbounded", "anchors": ["cmd/bbn/train.go: trainCommand", "cmd/bbni/main.go: rootCommand", "cmd/bbn/inference.go: inferenceCommand", "internal/tui/node.go: NewNode, drawTitle"]}
{"id": "C100", "title": "Possible evidence gives probabilities, not NaN", "statement": "If the evidence has a positive probability, SolveQuery returns finite probabilities.", "quantifier": "all float64 networks, evidence and queries, all map orders", "why_tests_cant": "tests use a few observations; whether the numbers stay in range depends on the number of observations and the tables", "anchors": ["network.go: SolveQuery, normalize", "ve/variables.go: Product, Normalize"]}
{"id": "C101", "title": "Slices that share memory do not change answers", "statement": "Whatever sequence of methods is called on a network, and whatever the caller writes to slices that it got from these methods or made itself, every call returns what it would return if all slices were copied on every assignment.", "quantifier": "all networks whose tables the caller passes to New and no longer writes to, all sequences of calls of SolveQuery, SolveUtility, SolvePolicies, ToEvidence, Normalize, NormalizeUtility, Marginal, Rearrange and of training, with all writes of the caller in between, all orders of maps", "why_tests_cant": "tests look at returned values; whether two slices share an array shows only when one of them is written later", "anchors": ["ve/variables.go: Restrict, SumOut, Product, Sum, Rearrange, Invert, Normalize, NormalizeFor, Policy", "ve/ve.go: Solve, SolvePolicies", "network.go: New, Solve*, ToEvidence, Normalize, Marginal, Rearrange", "training.go: UpdateNetwork"]}
{"id": "C102", "title": "Solving writes to no existing slice, and results are new", "statement": "Every method except training leaves all arrays as they are that existed before the call, also when it fails. The arrays of its results are new, different from each other, and not used by the network. Training writes to the tables of its network and to nothing else.", "quantifier": "all networks reached by calls and writes of the caller, all requests, all orders of maps, errors and panics included", "why_tests_cant": "a test would have to compare all memory before and after", "anchors": ["ve/variables.go: Restrict, SumOut, Product, Sum, Rearrange, Invert, Normalize, NormalizeFor, Policy", "ve/ve.go: Solve, SolvePolicies", "network.go: New, Solve*, ToEvidence, Normalize, Marginal, Rearrange", "training.go: UpdateNetwork"]}
{"id": "C103", "title": "A network is self-contained", "statement": "Only calls of its own methods change what a network answers.", "quantifier": "all pairs of networks, all calls", "why_tests_cant": "tests use one network at a time", "anchors": ["network.go: New", "training.go: UpdateNetwork"]}
{"id": "C104", "title": "Training on complete samples finds the most likely tables", "statement": "After successful training on samples without missing outcomes, no other non-negative tables for the same network give the samples a higher probability, where the probability of a sample is what SolveQuery answers for its outcomes as evidence and an empty query. If the network has no stored policies, each sample has a positive probability.", "quantifier": "all networks with one table per variable, all lists of valid complete samples, all other tables", "why_tests_cant": "tests compare trained tables with expected tables for a few samples; optimality ranges over all real tables", "anchors": ["training.go: Trainer.AddSample, Trainer.UpdateNetwork", "network.go: SolveQuery"]}
{"id": "C105", "title": "Factors can be used after later calls", "statement": "After a successful SolveQuery or SolveUtility, the methods Normalize, NormalizeUtility, Marginal, Rearrange and ToEvidence give the same numbers for the same variables no matter which other calls, successful or not, are made on the network before them. On a network that was never solved, ToEvidence returns an error and the others panic.", "quantifier": "all networks, all histories of calls after a successful solve, all factors, names and outcomes, any arithmetic", "why_tests_cant": "the methods use the solver that the latest call left behind, so the answer could depend on any history of calls", "anchors": ["network.go: Normalize, NormalizeUtility, Marginal, Rearrange, ToEvidence, toVE"]}
{"id": "C106", "title": "A network in other words gives the same answers", "statement": "Renaming the nodes and the outcomes of a network, and writing its nodes, tables, parents and outcomes in other orders with the entries moved accordingly, changes no answer of SolveQuery other than in the names, and does not change the maximum expected utility.", "quantifier": "all networks, all dictionaries of names, all orders, all queries with an answer, all iteration orders", "why_tests_cant": "the answer runs through tables indexed by positions in lists, name maps and elimination orders, each of which changes with the order and the names; only a few of all the ways to write a network can be tried", "anchors": ["network.go: New, SolveQuery, SolvePolicies, SolveUtility"]}
{"id": "C107", "title": "A further option never hurts", "statement": "If decisions get further outcomes and everything that follows from the old ones stays the same, the expected utility that SolveUtility returns after SolvePolicies is the same or higher.", "quantifier": "all pairs of decision networks that differ in further outcomes of any of their decisions, in which decisions are ordered and nothing is forgotten; all iteration orders", "why_tests_cant": "a larger table changes every index, product and tie; only a few of all networks and options can be tried", "anchors": ["network.go: SolvePolicies, SolveUtility", "ve/ve.go: SolvePolicies"]}
{"id": "C108", "title": "Other utilities change the maximum expected utility in proportion", "statement": "If every entry of every utility table grows by at least lo and at most hi (per utility node), the maximum expected utility grows by at least the weighted sum of the lo and at most the weighted sum of the hi. The policies found for the old utilities lose at most the difference of the two sums. In particular, raising utilities never lowers the maximum expected utility.", "quantifier": "all pairs of decision networks that differ in utility tables only, with weights that are not negative, ordered decisions and no forgetting; all iteration orders", "why_tests_cant": "the maximum runs over all combinations of policies, and the chosen policies jump when utilities change a little", "anchors": ["network.go: SolvePolicies, SolveUtility", "ve/variables.go: Policy"]}
{"id": "C109", "title": "A table between two tables gives answers between theirs", "statement": "If three networks differ in one probability table, and in one of them it is the mean of the other two tables with weights w and 1-w, every probability that SolveQuery returns for it lies between those of the other two, for all evidence that is possible in both. Where the evidence is equally probable in both, in particular without evidence, the answer is exactly the mean with the same weights.", "quantifier": "all triples of networks that differ in one table so, all weights from 0 to 1, all possible evidence, all queries, with and without policies, all iteration orders", "why_tests_cant": "an answer is a quotient of two sums over all states; examples show single points of a curve that must not leave its bounds anywhere", "anchors": ["network.go: SolveQuery", "ve/ve.go: SolveQuery, eliminateEvidence, sumAll"]}
{"id": "C110", "title": "Knowing which table is right never hurts", "statement": "If three networks differ in one probability table, and in one of them it is the mean of the other two tables with weights w and 1-w, the maximum expected utility that SolveUtility returns for it after SolvePolicies is at most the mean of those of the other two, with the same weights.", "quantifier": "all triples of decision networks that differ in one probability table so, in which decisions are ordered and nothing is forgotten; all iteration orders", "why_tests_cant": "the maximum runs over all combinations of policies, and is not smooth in the table", "anchors": ["network.go: SolvePolicies, SolveUtility", "ve/ve.go: SolvePolicies"]}
{"id": "C111", "title": "Only the joint distribution matters", "statement": "Two networks with the same variables whose tables multiply to the same joint distribution, up to a constant factor, give the same answers to every SolveQuery call, for possible and impossible evidence.", "quantifier": "all pairs of networks with the same variables and proportional joint weights, all evidence, all queries, with and without policies, all iteration orders", "why_tests_cant": "the two networks may have different arcs and tables, so nothing that is computed on the way is the same", "anchors": ["network.go: SolveQuery", "ve/ve.go: SolveQuery, eliminateEvidence, sumAll"]}
{"id": "C112", "title": "Reversing an arc changes no answer", "statement": "If the arc between two chance nodes is reversed, so that the tables of both hold the sums and products that Bayes' rule asks for, every answer of SolveQuery and the maximum expected utility reported after SolvePolicies stay the same.", "quantifier": "all networks, all arcs between chance nodes, all evidence, all queries, all iteration orders; maximum expected utility for decisions that are ordered and forget nothing", "why_tests_cant": "two tables change at once, with other parents and another shape", "anchors": ["network.go: SolveQuery, SolvePolicies, SolveUtility", "ve/variables.go: NormalizeFor"]}
{"id": "C113", "title": "A coarser network gives the sums of the finer answers", "statement": "If the joint distribution of one network is the sum of that of another over left-out variables and put-together outcomes, the probability SolveQuery reports for an outcome in the coarse network is the sum of the probabilities of its outcomes in the fine network, for all evidence on outcomes that are not put together; evidence that is impossible in one is impossible in the other.", "quantifier": "all pairs of networks where one summarises the other, all groupings of outcomes, all evidence, all queries, all iteration orders", "why_tests_cant": "the two networks differ in variables, outcomes and tables; only the sums of their joint distributions agree", "anchors": ["network.go: SolveQuery", "ve/ve.go: SolveQuery"]}
{"id": "C114", "title": "A node with a single child can be summed into it", "statement": "If a chance node has one child only, and the node is deleted while the table of its child is replaced by the sum over the outcomes of the node, SolveQuery gives the same answers about all other nodes.", "quantifier": "all networks, all chance nodes with exactly one child, all evidence and queries on the other nodes, all iteration orders", "why_tests_cant": "a variable and a table disappear and another table changes its parents", "anchors": ["network.go: SolveQuery"]}
{"id": "C115", "title": "Outcomes that no table tells apart can be put together", "statement": "If outcomes of a chance variable that have the same rows in all tables of its children are replaced by one outcome, whose probability is the sum, SolveQuery gives the same answers for all other variables, and the sum of the old probabilities for the new outcome.", "quantifier": "all networks, all chance variables, all groupings of outcomes that the other tables treat alike, all evidence on other variables, all queries, all iteration orders", "why_tests_cant": "the number of outcomes enters every index computation and the size of each table with the variable", "anchors": ["network.go: SolveQuery", "ve/variables.go: CreateFactor"]}
{"id": "C116", "title": "Observing an added report gives soft evidence", "statement": "If a chance node with the single parent X is added to a network and one of its outcomes is observed, SolveQuery multiplies the probability of each outcome of X by the likelihood of the report and divides by the sum; the answers for all other nodes are those for each outcome of X, weighted with the new probabilities of X. A report that is impossible gives NaN.", "quantifier": "all networks without stored policies, all nodes X, all tables of the added node, all reports, all other evidence, all iteration orders", "why_tests_cant": "relates the answers of two networks for all tables and all evidence", "anchors": ["network.go: SolveQuery", "ve/ve.go: SolveQuery"]}
{"id": "C117", "title": "Training can be continued at any time", "statement": "AddSample, UpdateNetwork and the solving functions of the network can be mixed in any order. UpdateNetwork returns what UpdateNetwork returns for a new trainer of the original network after all samples added so far, and leaves the same tables in the network, also if this or an earlier call returned an error. No other call changes the tables. Without stored policies, all answers are those of the network trained at once.", "quantifier": "all trainable networks, all sequences of AddSample (valid samples), UpdateNetwork and solving calls, all iteration orders, all numbers incl. float64", "why_tests_cant": "sequences of calls of any length and in any order; UpdateNetwork overwrites the tables it trains from", "anchors": ["training.go: AddSample, UpdateNetwork", "network.go: SolveQuery, SolveUtility, SolvePolicies"]}
{"id": "C118", "title": "Policies after training", "statement": "After UpdateNetwork, all answers follow policies for the trained tables. (False of the code: policies that were solved before training are kept until SolvePolicies is called again.)", "quantifier": "all trainable networks with decisions, all samples", "why_tests_cant": "needs a comparison of two histories of the same network", "anchors": ["training.go: UpdateNetwork", "network.go: SolvePolicies, SolveQuery"]}
{"id": "C119", "title": "Training recovers the network that the samples come from", "statement": "If the numbers of samples with each joint outcome are in proportion to the probabilities of a network, training a network with the same nodes and arcs and any other tables gives exactly the conditional probabilities of that network, and the trained network gives the same answers to all queries. Training succeeds exactly if no combination of parents has the probability 0.", "quantifier": "all networks of chance nodes without cycles, all starting tables, all lists of complete samples with the frequencies of the network, all evidence and queries, all iteration orders", "why_tests_cant": "relates frequencies in lists of any length to the joint distribution of any network", "anchors": ["training.go: NewTrainer, AddSample, UpdateNetwork", "network.go: SolveQuery"]}
{"id": "C120", "title": "Copies of all samples change nothing", "statement": "Adding all samples several times, in any order, gives the same tables, the same result and the same network after an error as adding them once.", "quantifier": "all trainable networks, all lists of valid samples, all numbers of copies, all orders", "why_tests_cant": "lists of any length and any number of copies", "anchors": ["training.go: AddSample, UpdateNetwork"]}
{"id": "C121", "title": "A table affects its node and the nodes below it only", "statement": "If two networks differ in the table of one chance node, which may also have other parents, SolveQuery gives the same probabilities for every node that is neither this node nor below it, for all evidence about such nodes.", "quantifier": "all pairs of networks without cycles that differ in one table, all possible evidence and queries about nodes not below it, with and without policies, all iteration orders", "why_tests_cant": "relates runs on two networks of any size; the nodes not below it have to be found in the graph", "anchors": ["network.go: SolveQuery"]}
{"id": "C122", "title": "Fixing a node by its table is an intervention", "statement": "If the table of a node is replaced by one that gives all probability to one outcome, then with the parents of the node in the evidence, SolveQuery answers as the old network does when the outcome is observed. Without evidence, its answers are the means of these answers, weighted with the probabilities of the parents (the adjustment formula), so the nodes above are not affected.", "quantifier": "all networks, all chance nodes and outcomes, all evidence with the parents, all queries, all iteration orders", "why_tests_cant": "sums over all combinations of parents, relating many runs on two networks", "anchors": ["network.go: SolveQuery"]}
{"id": "C123", "title": "Small changes of tables change answers little", "statement": "If no conditional probability of a chance variable differs by more than a factor between two networks, and R is the product of these factors over all variables, then the answers of SolveQuery do not differ by more than the factor R*R for any possible evidence, and by no more than R without evidence. If no utility is negative, the maximum expected utilities after SolvePolicies do not differ by more than the factor R.", "quantifier": "all pairs of networks with the same structure and tables with factors of any size between their entries, all evidence and queries, all iteration orders", "why_tests_cant": "bounds the effect of all rounding or estimation errors in tables at once, over all network sizes", "anchors": ["network.go: SolveQuery", "network.go: SolvePolicies", "network.go: SolveUtility"]}
{"id": "C124", "title": "The zeros of tables decide what is possible", "statement": "If two networks with the same structure have zeros at the same places of their tables, SolveQuery finds the same evidence impossible (all answers NaN) in both and gives zero probability to the same outcomes.", "quantifier": "all pairs of networks with the same structure and the same zeros, all evidence and queries, all iteration orders", "why_tests_cant": "relates two networks of any size whose other numbers are arbitrary", "anchors": ["network.go: SolveQuery"]}
{"id": "C125", "title": "A row shares the memory of its table", "statement": "The slices returned by ve.Factor.Row and bbn.Factor.Row reference their table. Writing to element k of a row changes the entry that the row shows there (for ve.Factor as Set does), and no other entry and no other slice. All later calls of methods of the network give the answers for the changed table.", "quantifier": "all factors and rows, all programs that call methods and write to rows in any order, all iteration orders", "why_tests_cant": "aliasing over sequences of calls of any length", "anchors": ["network.go: Factor.Row", "ve/factor.go: Row", "ve/factor.go: Set", "network.go: New"]}
{"id": "C126", "title": "An option that is never recommended can be removed", "statement": "If the policies returned by SolvePolicies give probability zero to some of the outcomes of decisions in all situations, removing these outcomes (from the decisions and the tables) does not change the maximum expected utility. Conversely, if further outcomes raise the maximum expected utility, some returned policy uses one of them.", "quantifier": "all decision networks, all sets of outcomes of decisions, all tables for what follows from them, all iteration orders", "why_tests_cant": "optimality over all policies of two networks of any size", "anchors": ["network.go: SolvePolicies", "network.go: SolveUtility", "network.go: solvePolicy"]}
{"id": "C127", "title": "It does not matter how a CSV file is written", "statement": "Training files with the same fields give the same result in bbn train and bbni, whether fields are in quotes, whichever separator is used (and given with --delim), with both kinds of line ends, with blank lines and with or without an end of the last line. Every table of texts without CR LF in a field can be written, and no file can be read in two ways. The delimiters NUL, LF, CR, the quote and U+FFFD are errors, and so is a file with an odd number of quotes.", "quantifier": "all tables of texts, all ways to write them, all separators, all networks", "why_tests_cant": "texts of any length with any nesting of quotes, separators and line ends", "anchors": ["internal/tui/training.go: TrainNetwork", "cmd/bbn/train.go: trainCommand", "cmd/bbni/main.go: rootCommand"]}
{"id": "C128", "title": "A dominated option of the last decision can be removed", "statement": "If an outcome of a decision that no other decision knows about has the same effect on the chance variables as some other outcome of it and gives at most as much utility in every state of the other variables, removing it (from the decision and the tables) does not change the maximum expected utility that SolvePolicies and SolveUtility give.", "quantifier": "all decision networks, all last decisions, all sets of dominated outcomes, all tables, all iteration orders", "why_tests_cant": "optimality over all policies of two networks of any size", "anchors": ["network.go: SolvePolicies", "network.go: SolveUtility", "network.go: solvePolicy"]}
{"id": "C129", "title": "An option that is always worse than another one is not recommended", "statement": "If an outcome of the last decision has the same effect on the chance variables as another outcome of it and gives less utility in every state of the other variables, the policy returned by SolvePolicies gives it probability zero in every situation (outcomes of all nodes that the decision observes) that has a positive probability.", "quantifier": "all decision networks, all last decisions, all strictly dominated outcomes, all possible situations, all iteration orders", "why_tests_cant": "holds for all tables and all networks; tests see a few", "anchors": ["network.go: SolvePolicies", "network.go: solvePolicy", "ve/factor.go: Policy"]}
{"id": "C130", "title": "Expected utilities of different calls fit together", "statement": "SolveUtility with evidence gives the sum of what it gives with a further observed node, over the outcomes of that node. The expected utility given the evidence (divided by the probability of the evidence) is the average of those given the outcomes, weighted by the probabilities that SolveQuery gives. Observing what is certain does not change it, and it lies between the lowest and the highest utility.", "quantifier": "all networks in which every decision has a policy (as after SolvePolicies), all evidence, all nodes without evidence, all iteration orders of each of the calls", "why_tests_cant": "relates many calls on networks of any size", "anchors": ["network.go: SolveUtility", "network.go: SolveQuery", "ve/ve.go: SolveUtility"]}
{"id": "C131", "title": "It does not matter in which format a network is given", "statement": "A YAML document and a BIF-XML document that say the same (names, types, outcomes, positions, parents, and the same numbers in the tables, where a logic operator of the YAML document is written as its table) give networks that no call can tell apart, after any other calls; nodes, positions and tables are equal and ToYAML writes the same document. If one document is not accepted, the other one is not accepted for the same reason. bbn inference prints the same lines for both files, and bbn train writes the same document.", "quantifier": "all pairs of documents that say the same, also invalid networks; all histories of calls; all functions for reading numbers; any arithmetic", "why_tests_cant": "relates two loaders on documents of any size", "anchors": ["yml.go: FromYAML", "xml.go: FromBIFXML", "network.go: New, FromFile", "cmd/bbn: inference"]}
{"id": "C132", "title": "A node that nothing depends on changes no decision", "statement": "Adding a chance node that is no parent of any other node (so no decision observes it and no utility depends on it) does not change the maximum expected utility that SolvePolicies and SolveUtility give. The policies returned for the larger network are best in the smaller one, and any policies have the same expected utility in both.", "quantifier": "all decision networks without forgetting, all such nodes with any table and parents, all iteration orders, both modes of SolvePolicies", "why_tests_cant": "relates the results of whole optimisations on pairs of networks of any size", "anchors": ["network.go: SolvePolicies", "network.go: SolveUtility", "ve/ve.go: SolvePolicies"]}
{"id": "C133", "title": "A decision that nothing depends on changes no other decision", "statement": "Adding a decision that is no parent of any other node does not matter: SolvePolicies returns policies for the larger network, and those for the other decisions are the best ones of the smaller network. The maximum expected utility is the same.", "quantifier": "all decision networks without forgetting, all further decisions with any options and observations, all iteration orders, both modes of SolvePolicies", "why_tests_cant": "relates the results of whole optimisations on pairs of networks of any size", "anchors": ["network.go: SolvePolicies", "ve/ve.go: SolvePolicies", "ve/ve.go: solvePolicies"]}
