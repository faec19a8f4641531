{"id": "C01", "title": "Negate is logical negation relative to the consistency clauses", "statement": "For a CNF c whose literals are non-zero, every valuation that satisfies the consistency clauses of c.Negate(k) also satisfies the consistency clauses of c, and satisfies the semantic clauses of c.Negate(k) exactly when it does not satisfy the semantic clauses of c. The same holds for the empty CNF and for a CNF with an empty clause.", "quantifier": "every CNF (any number and length of clauses, empty ones included), every optional topv argument, every propositional valuation", "why_tests_cant": "The number of clause shapes and of valuations is infinite; the unit tests compare five literal outputs.", "anchors": ["cnf/cnf.go:Negate", "cnf/cnf.go:tseytinNegation", "cnf/cnf.go:addNegationIFFClauses"]}
{"id": "C02", "title": "Negate only adds fresh definitions", "statement": "Every valuation satisfying the consistency clauses of c can be extended, changing only variables larger than max(c.TopV(), k), into a valuation satisfying the consistency clauses of c.Negate(k). Hence (c.Negate(k) satisfiable) iff (some valuation satisfies c's consistency clauses and falsifies its semantic clauses).", "quantifier": "every CNF built by the package, every k, every valuation", "why_tests_cant": "It is an existence statement over infinitely many formulas: a clash between a Tseytin variable and a used variable shows up only for particular numberings.", "anchors": ["cnf/cnf.go:Negate", "cnf/cnf.go:tseytinNegation"]}
{"id": "C03", "title": "Conjunction and the Append methods are conjunction", "statement": "A valuation satisfies the semantic (resp. consistency) clauses of a.Conjunction(b) iff it satisfies those of a and those of b; AppendSemantics/AppendConsistency/FromClauses add exactly the clauses passed, to exactly that side, in order.", "quantifier": "every pair of CNFs, every clause list, every valuation", "why_tests_cant": "Universal over formulas and valuations.", "anchors": ["cnf/cnf.go:Conjunction", "cnf/cnf.go:AppendSemantics", "cnf/cnf.go:AppendConsistency", "cnf/cnf.go:FromClauses"]}
{"id": "C04", "title": "TopV bounds every literal, for every way of building a CNF", "statement": "For every CNF obtained from the empty/True/False/FromClauses CNFs by any sequence of AppendSemantics, AppendConsistency, Conjunction and Negate, TopV() is at least the absolute value of every literal of every clause, and never decreases from an operand to the result; negation introduces no zero literal.", "quantifier": "every finite sequence of CNF operations with arbitrary clause arguments", "why_tests_cant": "Needs an invariant over unboundedly many operation histories.", "anchors": ["cnf/cnf.go:TopV", "cnf/cnf.go:maxVar", "cnf/cnf.go:Negate"]}
{"id": "C05", "title": "DIMACS serialisation is faithful", "statement": "ToBytes() of a CNF with non-zero literals is read back, by a DIMACS reader written independently, as exactly the list of semantic clauses followed by the list of consistency clauses, with a header whose clause count is exact and whose variable count bounds every literal. ToFile writes exactly the same bytes when all its writes succeed, and returns an error as soon as one write fails.", "quantifier": "every CNF, every literal value, every position at which a write fails", "why_tests_cant": "Round trip over an infinite set of formulas and integers.", "anchors": ["cnf/cnf.go:ToBytes", "cnf/cnf.go:ToFile", "cnf/cnf.go:clauseToDIMACS"]}
{"id": "C06", "title": "CNF variable numbering is stable, injective and positive", "statement": "Along any history of CNFVar, UpdateTopV and CNFVarExists calls starting from a new (or reset) context: a triple keeps the number it was first given, different triples have different numbers, every number is between 1 and TopV(), and no number at or below a value passed to a successful UpdateTopV is later handed out as new.", "quantifier": "every sequence of operations on the variable manager, every triple", "why_tests_cant": "The property ranges over call histories.", "anchors": ["query/varmanager.go:CNFVar", "query/varmanager.go:UpdateTopV", "query/varmanager.go:TopV", "query/varmanager.go:CNFVarExists"]}
{"id": "C07", "title": "Reset returns the context to its initial observable state", "statement": "After Reset, the context behaves like a freshly built one: numbering restarts at 1, no variable exists, no constant is scoped, and ScopeVar is the identity, for any later history of calls.", "quantifier": "every history of context calls before the Reset and after it", "why_tests_cant": "Requires comparing all continuations of all histories; a leftover entry only shows up with a particular continuation.", "anchors": ["query/context.go:Reset", "query/scoper.go:Reset", "query/varmanager.go:Reset"]}
{"id": "C08", "title": "Scoped variable names never clash", "statement": "For names and scope targets that do not contain the unit separator (ascii 31), different variables never get the same scoped name, in whatever stacks they are scoped; and the same variable scoped under stacks that differ in the part that matters gets different names.", "quantifier": "every pair of variable names, every pair of scope stacks with any targets and any indices", "why_tests_cant": "Injectivity over all strings and stacks of any depth.", "anchors": ["query/scoper.go:ScopeVar", "query/scoper.go:AddVar"]}
{"id": "C09", "title": "Scope stack discipline", "statement": "AddScope/PopScope/SetScope/AddVar obey stack discipline: PopScope after AddScope (with any variable additions and scope settings in between) restores name resolution of every earlier variable and constant; PopScope and SetScope on an empty stack return an error and change nothing.", "quantifier": "every scoper state and every balanced history of operations", "why_tests_cant": "Ranges over histories of operations of any length and depth.", "anchors": ["query/scoper.go:PopScope", "query/scoper.go:AddScope", "query/scoper.go:SetScope"]}
{"id": "C10", "title": "A guarded constant resolves to the value of its own quantifier", "statement": "Inside ForAllGuarded with constant ID c, a constant with ID c takes the current node's value of the innermost enclosing ForAllGuarded with that ID; a constant whose ID is not bound keeps its own value.", "quantifier": "every scope stack, every constant", "why_tests_cant": "Ranges over all nestings; shadowing is not exercised by the tests.", "anchors": ["query/scoper.go:ScopeConst", "query/logop/forallguarded.go:buildEncoding"]}
{"id": "C11", "title": "A declared variable always decodes to exactly one partial instance", "statement": "In every valuation satisfying the consistency clauses of an encoding of WithVar{x,Q} in a fresh context, each feature of x has exactly one of the values BOT, ZERO, ONE; and every partial instance is the decoding of some valuation of those clauses.", "quantifier": "every model dimension, every sub-query Q of the library, every valuation", "why_tests_cant": "Ranges over all sub-queries and valuations; sub-queries could overwrite or skip the clauses.", "anchors": ["query/logop/with_var.go:encodeI", "query/logop/with_var.go:Encoding"]}
{"id": "C12", "title": "Subsumption encodings are exact", "statement": "All four versions (variable/constant arguments) of Subsumption encode: for every feature, e1[i] is BOT or equals e2[i]. In a valuation that satisfies the consistency clauses, the semantic clauses hold iff the decoded arguments are in that relation.", "quantifier": "every dimension, every pair of partial instances, every context state", "why_tests_cant": "Tables in the tests cover a few instances of dimension 3.", "anchors": ["query/predicates/subsumption/*.go:Encoding"]}
{"id": "C13", "title": "Less-or-equal-level encodings are exact", "statement": "All four versions of LEL encode: the number of BOT features of e1 is at least that of e2, also when the formula is negated.", "quantifier": "every dimension, every pair of partial instances, every context state", "why_tests_cant": "The counting network has size quadratic in the dimension and its correctness is an induction over features.", "anchors": ["query/predicates/lel/*.go:Encoding", "query/predicates/lel/utils.go:varBotCountClauses"]}
{"id": "C14", "title": "Node predicate encodings are exact", "statement": "Both versions of Node hold exactly for the partial instances e_u of nodes u of the tree: e has the value of the branch taken at each feature decided on the path to u and BOT elsewhere; also under negation.", "quantifier": "every decision tree (any shape and numbering of nodes), every partial instance", "why_tests_cant": "Induction over trees.", "anchors": ["query/predicates/isnode/const.go:Encoding", "query/predicates/isnode/var.go:Encoding"]}
{"id": "C15", "title": "Full encodings are exact", "statement": "Both versions of Full hold exactly for instances without BOT features.", "quantifier": "every dimension and partial instance", "why_tests_cant": "Universal over dimensions.", "anchors": ["query/extensions/full/const.go:Encoding", "query/extensions/full/var.go:Encoding"]}
{"id": "C16", "title": "Consistency (Cons) encodings are exact", "statement": "All four versions of Cons hold exactly when the two partial instances agree on every feature where neither is BOT.", "quantifier": "every dimension, every pair of partial instances", "why_tests_cant": "Universal over dimensions.", "anchors": ["query/extensions/cons/*.go:Encoding"]}
{"id": "C17", "title": "AllComp encodings are exact", "statement": "Both versions of AllComp(e,b) hold exactly when every completion of e is classified b by the tree, also under negation.", "quantifier": "every decision tree, every partial instance, both leaf values", "why_tests_cant": "The statement quantifies over all 2^k completions of an instance and over all trees.", "anchors": ["query/extensions/allcomp/const.go:Encoding", "query/extensions/allcomp/var.go:Encoding"]}
{"id": "C18", "title": "DFS encodings are exact", "statement": "Both versions of DFS(e) hold exactly when, for every e' with the same set of BOT features as e, all completions of e' get the same classification.", "quantifier": "every decision tree, every partial instance", "why_tests_cant": "Quantifies over all instances with the same defined features and all of their completions.", "anchors": ["query/extensions/dfs/const.go:Encoding", "query/extensions/dfs/var.go:Encoding", "query/extensions/dfs/utils.go:leafsAsConsts"]}
{"id": "C19", "title": "Preference rank (HEPR) encodings are exact", "statement": "All four versions of HEPR agree with one relation on partial instances: at the first feature of the preference where exactly one of e1,e2 is BOT, e1 is the defined one (true if there is no such feature).", "quantifier": "every dimension, every duplicate-free preference, every pair of partial instances", "why_tests_cant": "Induction over the preference length.", "anchors": ["query/extensions/hepr/*.go:Encoding"]}
{"id": "C20", "title": "Hamming comparison (LEH) encodings are exact", "statement": "All eight versions of LEH hold exactly when e1,e2,e3 are full and the Hamming distance of e1,e2 is at most that of e1,e3.", "quantifier": "every dimension, every triple of partial instances", "why_tests_cant": "Counting networks over all dimensions; the trivial-case shortcuts are only wrong for special argument combinations.", "anchors": ["query/extensions/leh/*.go:Encoding", "query/extensions/leh/utils.go"]}
{"id": "C21", "title": "Not, And and Or mean not, and, or", "statement": "For arbitrary sub-queries of the library: under the consistency clauses of the compound encoding, the semantic clauses of Not/And/Or hold iff the Boolean combination of the sub-queries' meanings holds; in particular auxiliary consistency clauses of a negated sub-query are never negated.", "quantifier": "every query tree, every context, every valuation", "why_tests_cant": "Induction over all query trees; variable clashes between siblings depend on the whole tree.", "anchors": ["query/logop/not.go", "query/logop/and.go", "query/logop/or.go"]}
{"id": "C22", "title": "ForAllGuarded visits every node instance exactly once", "statement": "On a decision tree the guarded quantifier encodes its body once for each node of the tree, in preorder, with the constant bound to exactly that node's partial instance and with a distinct scope index; it terminates.", "quantifier": "every decision tree with any node numbering", "why_tests_cant": "Termination and completeness of a stateful graph walk over all trees.", "anchors": ["query/logop/forallguarded.go:Next", "query/logop/forallguarded.go:buildEncoding"]}
{"id": "C23", "title": "A query is satisfiable exactly when it is true (block semantics)", "statement": "Encoding a well-formed closed query over a decision tree in a fresh context succeeds, and the resulting CNF is satisfiable iff the query is true, where variables declared with WithVar are existentially quantified at the head of the enclosing ForAllGuarded body (or of the whole query), ForAllGuarded ranges over the node instances, and the predicates have their documented meaning.", "quantifier": "every query built from the library's components, every decision tree, every partial instance constant", "why_tests_cant": "Ranges over all query trees, all models and all 3^(dim*vars) assignments.", "anchors": ["query/logop/*.go:Encoding", "query/predicates", "query/extensions"]}
{"id": "C24", "title": "First-order reading of queries", "statement": "If, in addition, each variable is declared once and no WithVar occurs under Not, the CNF is satisfiable iff the formula is true in the usual first-order sense with WithVar read as 'there exists' and ForAllGuarded as 'for every node'.", "quantifier": "every such query, every decision tree", "why_tests_cant": "Ranges over all queries and models.", "anchors": ["query/logop/*.go:Encoding", "README.md"]}
{"id": "C25", "title": "Values returns the partial instance the solver found", "statement": "If the solver's output lists a satisfying assignment in DIMACS 'v' lines, Values returns for each variable declared with WithVar in the encoded query a constant of the model's dimension whose features are the values in that assignment; together these constants make the query's matrix true.", "quantifier": "every query, every satisfying assignment, every splitting of the assignment into 'v' lines", "why_tests_cant": "Ranges over all solver outputs.", "anchors": ["compute/solver.go:Values", "compute/solver.go:varValueFromBytes", "compute/solver.go:variableFilter"]}
{"id": "C26", "title": "QDTFAtom.Sat answers the query", "statement": "With a correct DIMACS solver and a fresh context, QDTFAtom{Q,false}.Sat returns true iff Q is true and QDTFAtom{Q,true}.Sat returns true iff Q is false; no error.", "quantifier": "every well-formed query, every decision tree, every correct solver", "why_tests_cant": "End-to-end statement over all inputs.", "anchors": ["compute/boolcomb.go:Sat", "compute/solver.go:Step"]}
{"id": "C27", "title": "And/Or combinators are short-circuiting conjunction and disjunction", "statement": "AndCombinator (OrCombinator) returns true iff all (some) elements do, evaluates elements left to right, stops at the first deciding element, and returns an error (panics) iff an element evaluated before a deciding one returns an error (panics, as a nil element does).", "quantifier": "every finite nesting of combinators, with nil elements anywhere, and every behaviour of the atoms", "why_tests_cant": "Ranges over all nestings and outcome sequences.", "anchors": ["compute/boolcomb.go:AndCombinator.Sat", "compute/boolcomb.go:OrCombinator.Sat"]}
{"id": "C28", "title": "ComputeOptim returns an optimal instance", "statement": "For a formula and an order given as queries, with a correct solver and a fresh context: if no instance satisfies the formula, Found is false with Calls=1; otherwise, if the order is a strict partial order, it terminates with Found true and a Value that satisfies the formula and such that no instance satisfying the formula is smaller in the order; Calls is the number of solver runs.", "quantifier": "every formula/order pair of queries, every decision tree, every choice of models by the solver", "why_tests_cant": "Requires a termination argument and all possible solver answers.", "anchors": ["compute/optimum.go:ComputeOptim"]}
{"id": "C29", "title": "ComputeOptim makes few solver calls", "statement": "If the order decreases a natural-number measure bounded by m then Calls <= m+2; in particular at most dim+2 calls for strict subsumption and for the strict level order.", "quantifier": "every formula, decision tree and solver behaviour", "why_tests_cant": "Worst case over all solver answers.", "anchors": ["compute/optimum.go:ComputeOptim", "README.md"]}
{"id": "C30", "title": "Constants of the wrong dimension are rejected", "statement": "Every predicate/extension with a constant argument whose (scoped) value has length different from the model's dimension returns an error and no CNF, in any context. A query containing such a component anywhere (the constant not bound by a quantifier of the query) never returns a CNF, and on a decision tree returns an error.", "quantifier": "every predicate, every constant, every context", "why_tests_cant": "Ranges over all constants and contexts.", "anchors": ["query/instances.go:ValidateConstsDim", "query/**/Encoding"]}
{"id": "C31", "title": "Nil context, nil sub-query and nil generator are reported as errors", "statement": "Encoding with a nil context returns an error for every component; logical operators with a nil child and components with a nil generator function return an error; the errors of a sub-query are returned by the operator around it. A query with a nil child, a nil generator or an invalid preference anywhere never returns a CNF, and on a decision tree returns an error.", "quantifier": "every query tree containing such a component at the position reached", "why_tests_cant": "Ranges over all trees.", "anchors": ["query/logop/*.go:Encoding"]}
{"id": "C32", "title": "Encoding leaves the scope stack as it found it", "statement": "Whatever the query, the model and the outcome (CNF or error), after Encoding returns the context has the same scope stack as before; every constant and every variable recorded at some depth resolves as before; outside any quantifier, and after any ForAllGuarded, the whole scoper is as before.", "quantifier": "every query, model and context state, success and error", "why_tests_cant": "Error exits at arbitrary depth inside nested quantifiers.", "anchors": ["query/logop/forallguarded.go:buildEncoding", "query/scoper.go:PopScope"]}
{"id": "C33", "title": "Encoding never renumbers or reuses CNF variables", "statement": "For every query and context, Encoding keeps all existing triples' numbers; TopV does not decrease; all literals of the CNF returned are non-zero and at most TopV in absolute value; auxiliary negation variables are not assigned to any triple, then or later.", "quantifier": "every query, model and context history", "why_tests_cant": "Interaction of two numbering sources over all query trees.", "anchors": ["query/logop/*.go", "query/varmanager.go", "cnf/cnf.go:Negate"]}
{"id": "C34", "title": "Evaluating a query again in the same context gives the same answer", "statement": "Calling Sat (or ComputeOptim) twice with the same query, context and a correct solver gives the same answer.", "quantifier": "every query, every decision tree", "why_tests_cant": "A history property: the second call starts from the state left by the first.", "anchors": ["query/logop/with_var.go:encodeI", "compute/boolcomb.go:QDTFAtom.Sat", "compute/optimum.go:ComputeOptim"]}
{"id": "C35", "title": "CNF methods have value semantics", "statement": "The CNF methods return a new CNF and do not change the clauses of the receiver, of the argument, or of any other CNF derived from them.", "quantifier": "every sequence of CNF method calls, every slice capacity history", "why_tests_cant": "Depends on hidden slice capacity and on aliasing between values.", "anchors": ["cnf/cnf.go:AppendSemantics", "cnf/cnf.go:AppendConsistency", "cnf/cnf.go:Conjunction", "cnf/cnf.go:Negate"]}
{"id": "C36", "title": "Encoding never panics on valid models", "statement": "On a decision tree (or, for components that do not look at the model, on any model with positive dimension), encoding any query with valid constants returns a CNF or an error and never panics or loops.", "quantifier": "every query, decision tree, preference list", "why_tests_cant": "Ranges over all inputs, including empty preferences and empty models.", "anchors": ["query/extensions/hepr/*.go", "query/extensions/dfs/utils.go", "query/extensions/allcomp/const.go", "query/predicates/isnode/*.go"]}
{"id": "C37", "title": "Malformed models are reported as errors", "statement": "If a node's feature or child index is out of range, components that walk the model return an error instead of panicking or looping.", "quantifier": "every list of nodes", "why_tests_cant": "Ranges over all malformed models.", "anchors": ["query/logop/forallguarded.go:validateNode", "query/extensions/dfs/utils.go:validateNode", "query/predicates/isnode/const.go", "query/extensions/allcomp/const.go"]}
{"id": "C38", "title": "Components sharing one reachability generator can be combined", "statement": "Node(x) and AllComp(x,b) given the same ReachNodeVarGen, as the README asks, can be combined in one query without changing its meaning.", "quantifier": "every decision tree and instance", "why_tests_cant": "Interaction of auxiliary variables of two components; each component alone passes its tests.", "anchors": ["query/predicates/isnode/var.go", "query/extensions/allcomp/var.go", "README.md"]}
{"id": "C39", "title": "Auxiliary variables of different predicates do not interfere", "statement": "Different LEH (HEPR) components with the same injective name generator can be combined in one query without changing its meaning.", "quantifier": "every pair of components, every preference and constant", "why_tests_cant": "The clash needs particular pairs of arguments.", "anchors": ["query/extensions/hepr/util.go:prefVar", "query/extensions/leh/const_var_const.go:Encoding"]}
{"id": "C40", "title": "QConst helpers", "statement": "AllBotConst(d) has d BOT features; IsFull iff BotCount = 0 iff no BOT; EqualValue is equality of values; AsString is injective on valid values; ValidateConstsDim succeeds iff all lengths equal the dimension.", "quantifier": "every dimension and constant", "why_tests_cant": "Universal over instances.", "anchors": ["query/instances.go"]}
{"id": "C41", "title": "Trivial truth checks are sound", "statement": "TriviallyTrue implies every valuation satisfies the CNF, TriviallyFalse implies none does; the CNFs TrueCNF/FalseCNF are recognised.", "quantifier": "every CNF and valuation", "why_tests_cant": "Universal over formulas.", "anchors": ["cnf/cnf.go:TriviallyTrue", "cnf/cnf.go:TriviallyFalse"]}
{"id": "C42", "title": "Minimal sufficient reasons (example program)", "statement": "The query pair of examples/computation.go, for every decision tree and every full instance c, makes ComputeOptim return a minimal sufficient reason of c.", "quantifier": "every decision tree, every full instance c, every solver behaviour", "why_tests_cant": "End-to-end statement over all trees.", "anchors": ["examples/computation.go", "compute/optimum.go"]}
{"id": "C43", "title": "Minimum determinant feature sets (example program)", "statement": "The query of examples/evaluation.go, for every decision tree and every c, evaluates to true iff c is a determinant feature set with the least number of defined features.", "quantifier": "every decision tree, every partial instance c", "why_tests_cant": "End-to-end statement over all trees.", "anchors": ["examples/evaluation.go"]}
{"id": "C44", "title": "Encodings have polynomial size", "statement": "The numbers of clauses, literals and CNF variables of an encoding are bounded by an explicit polynomial in the dimension and the number of nodes for each component, add up for And, Or, Not and WithVar with a bounded overhead, and are multiplied by at most the number of nodes by a guarded quantifier; a query of length l and quantifier depth k is bounded by l * P(dim, nodes) * nodes^k.", "quantifier": "every query, context and model, whatever the nodes", "why_tests_cant": "A bound for all sizes.", "anchors": ["query/predicates", "query/extensions", "query/logop", "cnf/cnf.go:Negate"]}
{"id": "C45", "title": "A non-strict order makes ComputeOptim run forever", "statement": "If the formula is satisfiable and every instance satisfying it has another (possibly itself) below it in the given order, for instance because the order is reflexive, then ComputeOptim never returns, whatever bound is put on its number of iterations.", "quantifier": "every model, formula, order satisfying this condition, correct solver and number of iterations", "why_tests_cant": "Non-termination cannot be observed by a test.", "anchors": ["compute/optimum.go:VCOrder", "compute/optimum.go:ComputeOptim"]}
{"id": "C46", "title": "WithVar is the existential quantifier wherever it stands", "statement": "The encoding of a query in a new context is satisfiable iff the query is true when WithVar is read as the existential quantifier and ForAllGuarded as the quantifier over the nodes' instances, wherever the declarations stand (under Not, twice with one name, in two quantifiers with one ID, again inside a quantifier).", "quantifier": "every decision tree, every query whose variables are declared around their uses", "why_tests_cant": "The deviations need particular nestings and names.", "anchors": ["query/logop/with_var.go:Encoding", "query/logop/not.go:Encoding", "query/scoper.go:AddVar", "query/scoper.go:ScopeVar"]}
{"id": "C47", "title": "Combinations of queries in one shared context", "statement": "Conjunctions, disjunctions and negated atoms over several queries, evaluated one after the other in one new context with one solver value, return the truth value of the combination, if no two of the queries declare a variable of the same name.", "quantifier": "every nesting of combinators, every number of well-formed queries with disjoint variables, every decision tree, every correct solver", "why_tests_cant": "The variables and cached component clauses left behind by each query are present when the next one is encoded; which ones are depends on short-circuiting.", "anchors": ["compute/boolcomb.go:QDTFAtom.Sat", "compute/boolcomb.go:QDTFAnd.Sat", "compute/boolcomb.go:QDTFOr.Sat", "query/logop/with_var.go:encodeI"]}
{"id": "C48", "title": "The example query of the README", "statement": "The README's example query, evaluated in a new context with a correct solver, answers true exactly if the tree has a partial, not full instance all of whose completions are negative, and then Values returns such an instance. (The README announces positive completions: with that reading the answer is wrong.)", "quantifier": "every decision tree within the integer range, every correct solver, every earlier state of the solver value", "why_tests_cant": "A unit test evaluates the query on a few trees; the instance returned depends on the solver.", "anchors": ["README.md:70-88", "query/logop/with_var.go:encodeI", "query/extensions/allcomp/var.go", "query/extensions/full/var.go", "compute/boolcomb.go:QDTFAtom.Sat"]}
{"id": "C49", "title": "Polynomially many solver calls", "statement": "ComputeOptim needs a number of solver calls polynomial in the size of the model, for every formula and every strict order without guarded quantifiers.", "quantifier": "every model, every query without quantifiers, every strict order, every correct solver", "why_tests_cant": "The number of calls depends on which models the solver happens to return; a real solver rarely returns the worst ones.", "anchors": ["README.md:20-23", "compute/optimum.go:ComputeOptim", "compute/optimum.go:22-31"]}
{"id": "C50", "title": "Any competition output can be read", "statement": "Values reads every output in the format of the SAT competitions: lines of values that consist of the letter v and numbers set apart by blanks, mixed with other lines.", "quantifier": "every layout of every assignment in lines, every context and variable", "why_tests_cant": "Tests contain the layout of one solver; other solvers put more than one blank between numbers or a blank at the end of a line.", "anchors": ["compute/solver.go:varValueFromBytes", "README.md:141-143"]}
{"id": "C51", "title": "Scoped constants share the quantifier's buffer", "statement": "A quantifier hands its scope the slice that its iterator overwrites at every turn. Encoding with scopes that hold references to these slices gives the same formula, error and context as encoding with a copy of the values per turn, and leaves the slices of enclosing quantifiers unchanged.", "quantifier": "every query with any nesting of quantifiers, every context, every model", "why_tests_cant": "An aliasing error shows only for components that keep a constant, and then as a wrong constant of another turn.", "anchors": ["query/scoper.go:SetScope", "query/scoper.go:ScopeConst", "query/logop/forallguarded.go:Next", "query/logop/forallguarded.go:buildEncoding"]}
{"id": "C52", "title": "Machine integers", "statement": "Encoding with variable numbers that wrap around at the width of int gives what encoding with unbounded numbers gives, as long as the last number of the resulting context fits; a bound on the sizes of query and model is enough for that. (Past the largest number an unsatisfiable query can get a satisfiable encoding.)", "quantifier": "every width, every query, every context with earlier use, every model", "why_tests_cant": "Overflow needs more variables than any test can allocate.", "anchors": ["cnf/cnf.go:absInt", "cnf/cnf.go:maxVar", "cnf/cnf.go:tseytinNegation", "query/varmanager.go:CNFVar"]}
{"id": "C53", "title": "Evaluations in several threads", "statement": "Threads that evaluate queries or compute optimal instances at the same time, each with its own context and solver value, get the results each would get alone, whatever the order of their file operations and whatever other processes do to other files; a file that is not the temporary file of a running thread is never touched, and no temporary file is left behind, also after errors and panics.", "quantifier": "any number of threads, every interleaving of file operations, every failure of file operations, every behaviour of the solver program", "why_tests_cant": "Interleavings cannot be enumerated; leaks and name clashes show only under load.", "anchors": ["compute/solver.go:Step", "compute/optimum.go:ComputeOptim", "cnf/cnf.go:ToFile", "compute/boolcomb.go:QDTFAtom.Sat"]}
{"id": "C54", "title": "Operators over components from outside", "statement": "The operators accept sub-queries of any type with an Encoding method. If such a component puts into its clauses only numbers it got from CNFVar, the formula of every query built from library and outside components with Not, And, Or, WithVar and ForAllGuarded says exactly the Boolean combination of what the components' formulas say, once per visited node under a quantifier; it is satisfiable exactly when the combination is; and scopes and numbers of the context are kept as for library queries. (A component that takes a number without asking for it can make the combination unsatisfiable.)", "quantifier": "every outside component that asks for its numbers, every query over such components, every context and model", "why_tests_cant": "Tests use one or two hand-written components; collisions of numbers depend on what is encoded before and after.", "anchors": ["query/logop/logop.go:LogOpQ", "query/logop/not.go:Encoding", "query/logop/and.go:Encoding", "query/logop/or.go:Encoding", "query/logop/with_var.go:Encoding", "query/logop/forallguarded.go:Encoding"]}
{"id": "C55", "title": "Models that are not read-once trees", "statement": "The Model interface asks for a positive dimension, features in range and the root at index 0; nothing keeps a model from testing a feature twice on a branch, sharing a node between two parents, or listing nodes no branch reaches. The components that look at the nodes have their documented meaning on all of these too.", "quantifier": "every list of nodes that unfolds from its root into a finite tree, every instance, every context", "why_tests_cant": "All trees in the tests and all trained trees that tests load are read-once, without shared or stray nodes.", "anchors": ["query/model.go:Model", "query/predicates/isnode/const.go:Encoding", "query/predicates/isnode/var.go:Encoding", "query/extensions/allcomp/const.go:Encoding", "query/extensions/allcomp/var.go:Encoding", "query/extensions/dfs/utils.go:leafsAsConsts", "query/logop/forallguarded.go:Next"]}
{"id": "C56", "title": "The compute package over its interfaces", "statement": "ComputeOptim and the combinators use the solver and the context only through their methods. Whatever is behind the methods, the calls follow one protocol: a Step for the formula, then in each turn Values of the variable right after the successful Step in the same context, Reset, and a Step for the formula and the order at the value read; the result is the last value read when that Step answers UnsatError, Calls is the number of Steps made, and any other error is returned as it is. Combinators make one Step per atom, from left to right, and stop at the first element that decides. With any solver that does what the Solver interface says, the result is optimal, an order that lowers a bounded measure ends within that bound, and an order without minimal solutions never ends. binSolver with a correct SAT solver is such a solver, also for Encodables from outside.", "quantifier": "every implementation of Solver and Encodable and every state of theirs, every formula and order", "why_tests_cant": "Tests have one solver and a handful of formulas; the order of calls is not observed.", "anchors": ["compute/solver.go:Solver", "compute/solver.go:Encodable", "compute/optimum.go:ComputeOptim", "compute/boolcomb.go:Sat"]}
{"id": "C57", "title": "The node walks visit what can be reached", "statement": "On any list of nodes that passes validation, with shared nodes, unreachable nodes and cycles, the iterator of ForAllGuarded ends and comes to exactly the nodes that can be reached from the root, to each once; leafsAsConsts ends and returns one constant for each leaf that can be reached, those of class true and false apart. If no way from the root tests a feature twice, the values at a node are the answers of a way to it.", "quantifier": "every list of nodes whose inner nodes have features and children in range", "why_tests_cant": "Tests walk a few small trees; shared nodes and cycles occur in none.", "anchors": ["query/logop/forallguarded.go:Next", "query/logop/forallguarded.go:newNodeAsValuesIter", "query/extensions/dfs/utils.go:leafsAsConsts"]}
{"id": "C58", "title": "How each component ends", "statement": "For every component, context and list of nodes, valid or not, one of four things happens and it is known which: a CNF, an error, a panic or an endless loop. An error for constants of the wrong dimension, nil generators, bad preferences; for the components that read the model, conditions on the nodes they read: Node of a variable panics at a feature out of range; Node of a constant fails where it gets stuck and loops where it never rests; dfs fails on an invalid node or without a leaf to reach and panics without nodes; hepr of a variable panics with an empty preference; leh of a variable and a constant with no features. AllComp of a constant never loops, fails only at a feature out of range and panics only at a child out of range that it reaches.", "quantifier": "every component with any operands, every context, every list of nodes", "why_tests_cant": "Ranges over all malformed models and operands.", "anchors": ["query/predicates/*/*.go:Encoding", "query/extensions/*/*.go:Encoding"]}
{"id": "C59", "title": "Any variable manager", "statement": "query.VarManager is an interface. With any implementation that gives each triple one positive number, different ones to different triples, new numbers above TopV, and for which raising TopV takes effect, encoding a query ends as it does with the library's manager: with the same error, or with the same clauses up to a renaming of variables, so with the same models and the same values of all triples.", "quantifier": "every VarManager that keeps these promises, every query, scoper and model", "why_tests_cant": "Tests have one manager.", "anchors": ["query/varmanager.go:VarManager", "query/logop/not.go:Encoding", "query/logop/or.go:Encoding", "query/logop/with_var.go:encodeI", "cnf/cnf.go:Negate"]}
{"id": "C60", "title": "What was encoded before changes names only", "statement": "In two contexts with the same scopes and model, whatever was encoded in them before, that agree on which of the query's own variables are declared, encoding the query ends the same way and gives the same clauses up to a renaming that respects the numbers of triples; so the formulas have the same models.", "quantifier": "every query, every two states of the variable manager", "why_tests_cant": "Ranges over all histories of a context.", "anchors": ["query/varmanager.go:CNFVar", "query/varmanager.go:UpdateTopV", "query/logop/with_var.go:encodeI", "cnf/cnf.go:tseytinNegation"]}
{"id": "C61", "title": "The text of packages cnf and query computes what the model computes", "statement": "The functions of cnf/cnf.go (ToFile: C65) and query/*.go, printed from the source text as programs of a small imperative language and executed by that language's semantics, return for all arguments exactly the results of the functions of the model, change receivers exactly as the model says, panic exactly when the model does and leave other memory alone.", "quantifier": "every CNF, clause list, scoper, variable manager, constant, node; every bound on nested calls and loop turns from a stated one on", "why_tests_cant": "Ranges over all arguments and relates the whole source text to the model on which the other theorems rest.", "anchors": ["cnf/cnf.go:Negate", "cnf/cnf.go:tseytinNegation", "query/scoper.go:ScopeVar", "query/scoper.go:PopScope", "query/varmanager.go:CNFVar", "query/instances.go:ValidateConstsDim"]}
{"id": "C62", "title": "Only exit codes 10 and 20 count as answers", "statement": "Step answers satisfiable exactly when the encoding could be made and written and the solver ended with exit code 10, and then keeps its output; unsatisfiable exactly when it ended with 20. Any other ending (another code, killed, could not be started, exit code 0 whatever was printed) is an error with the stated message and leaves the kept output alone. A boolean combination answers only if every run it made was answered; ComputeOptim gives a value, or says there is none, only if all runs but the last ended with 10 and the last with 20, and its count of calls is the number of runs.", "quantifier": "every query, context, file system and behaviour of the solver, correct or not", "why_tests_cant": "Tests run a working solver; failing ones do not occur.", "anchors": ["compute/solver.go:runSolver", "compute/solver.go:Step", "compute/boolcomb.go:Sat", "compute/optimum.go:ComputeOptim"]}
{"id": "C63", "title": "The text of every component and operator computes what the model computes", "statement": "Encoding of every component (LEL, subsumption, isnode, allcomp, cons, full, dfs, leh, hepr, on variables and constants) and of every operator (Not, And, Or, WithVar, ForAllGuarded), printed from the source text as programs and executed by the semantics of the language, returns for every query, context and surrounding memory exactly the CNF or error of the model, leaves the context exactly as the model does, panics exactly when the model does and does not end exactly when the model does not. With a nil context it returns the stated error.", "quantifier": "every query, context with distinct variables in its scoper, heap; every bound on nested calls and loop turns from a stated one on", "why_tests_cant": "Ranges over all queries and contexts and relates the whole text of package query to the model on which the other theorems rest.", "anchors": ["query/logop/and.go:Encoding", "query/logop/not.go:Encoding", "query/logop/forallguarded.go:Encoding", "query/predicates/lel/var_var.go:Encoding", "query/extensions/leh/var_var_var.go:Encoding", "query/extensions/dfs/const.go:Encoding"]}
{"id": "C64", "title": "The source text decides the query", "statement": "Running the text of BasicQContext and then the text of Encoding on a well-formed query gives a formula and no error; the formula is satisfiable exactly when the query is true of the tree (as a first-order sentence over partial instances, when declarations are used once and outside negations). On any valid context and tree, whatever the query, the text of Encoding returns and does not panic.", "quantifier": "every decision tree, well-formed query, naming; every context for the absence of panics", "why_tests_cant": "An end-to-end statement about the program text for all trees and queries.", "anchors": ["query/context.go:BasicQContext", "query/logop/forallguarded.go:Encoding", "query/logop/with_var.go:Encoding", "query/predicates/subsumption/var_var.go:Encoding"]}
{"id": "C65", "title": "The text of package compute computes what the model computes", "statement": "The text of CNF.ToFile, BinSolver, Step, Values, of Sat of every combination of queries, and of ComputeOptim, run by the semantics of the language with an operating system, returns what the model returns: the same answer, the same error, the same kept output of the solver, the same context; it panics exactly when the model does and runs out of turns exactly when the model does. Every temporary file made on the way is gone afterwards, whichever way the call ended, and all other files are as before.", "quantifier": "every query, combination, formula and order, context, solver value, memory, and every operating system: files, names of temporary files, failures of calls, behaviour of the solver", "why_tests_cant": "Ranges over all systems and solvers and relates the whole text of package compute to the model.", "anchors": ["compute/solver.go:Step", "compute/solver.go:Values", "compute/solver.go:BinSolver", "compute/optimum.go:ComputeOptim", "compute/boolcomb.go:Sat", "cnf/cnf.go:ToFile"]}
{"id": "C66", "title": "Whole programs, as written", "statement": "Run the text of BasicQContext and BinSolver and then of Sat, or of ComputeOptim, on a system where files can be written and the program at the given path answers every DIMACS file correctly. Sat returns without error whether the combination is true of the tree. ComputeOptim, with a strict order, returns without error an instance that satisfies the formula and has no better one, or says that there is none. The program of examples/computation.go returns a minimal sufficient reason with at most dim + 2 calls. The files at the end are those of the start.", "quantifier": "every decision tree, combination of well-formed queries, formula and strict order, full instance; every correct solver and system", "why_tests_cant": "An end-to-end statement about the program text for all trees, queries and solvers.", "anchors": ["query/context.go:BasicQContext", "compute/solver.go:BinSolver", "compute/boolcomb.go:Sat", "compute/optimum.go:ComputeOptim", "examples/computation.go:ComputationExample"]}
{"id": "C67", "title": "The two example programs print the right answer", "statement": "The text of ComputationExample and EvaluationExample, run on any system with a correct solver at the path they use, ends without panic, leaves the files as they were, and prints exactly 'Value found: [0 _ _]' (the only minimal sufficient reason of (0, 1, 1) for the tree in the file) and 'true' ((_, 0, _) is a determinant feature set of least size of the tree in the file). On any system at all, they do what the model of the library does with the same queries: they print the value found, or that there is none, or the truth value; they panic and print nothing if there is no file at the path or the call of the library returns an error.", "quantifier": "every operating system and solver, correct or not; every bound on nested calls and loop turns from a stated one on", "why_tests_cant": "The examples are run by no test, and the answer must not depend on which correct solver is used.", "anchors": ["examples/computation.go:ComputationExample", "examples/evaluation.go:EvaluationExample", "compute/optimum.go:ComputeOptim", "compute/boolcomb.go:Sat"]}
{"id": "C68", "title": "The properties hold of the bytes of the Go files", "statement": "The non-test Go files of the library and the examples, given byte for byte, are read by a reader of Go written and run inside the logic (lexical analysis with automatic semicolons, parsing, resolution of packages, constants, zero values, variadic calls, addresses) to exactly the program that C61 to C67 are about, with no function left out. So starting from the bytes: the formula computed for a query is satisfiable iff the query is true, combinations are answered, optima are found, and the examples print their answers. Where the reader decides by names alone, the names of the repository are unambiguous: package-level names are distinct, a function with the name of a variadic one is variadic in the same place, no method has the name of a field of function type.", "quantifier": "the 64 files as they are; then all queries, trees, operating systems and bounds as in C64, C66 and C67", "why_tests_cant": "A test runs the compiled files on chosen inputs; no test relates the text of the files to a statement about all inputs.", "anchors": ["cnf/cnf.go:CNF", "query/logop/forallguarded.go:Encoding", "compute/optimum.go:ComputeOptim", "examples/computation.go:ComputationExample", "examples/evaluation.go:EvaluationExample"]}
{"id": "C69", "title": "The findings are findings about the Go files", "statement": "What other properties find wrong is wrong with the program read from the bytes of the Go files: it computes unsatisfiable formulas for true queries and satisfiable ones for false queries (the witnesses of C38, C39, C46); it panics or runs without end on the inputs of C36 and C37; evaluating one query twice in one context gives two answers with every correct solver (C34); ComputeOptim does not report that it could not make its file (C62); Values does not read output that a correct solver may print (C50); under two quantifiers with one name a constant has the value of the outer one (C10), and ScopeVar panics on a variable that was declared before a Reset (C07).", "quantifier": "one witness each, found by proof; every correct solver and every bound on calls and loop turns from a stated one on", "why_tests_cant": "The tests of the repository pass on these programs: none of them runs these inputs.", "anchors": ["query/logop/with_var.go:Encoding", "query/logop/forallguarded.go:Next", "compute/boolcomb.go:Sat", "compute/optimum.go:ComputeOptim", "compute/solver.go:Values", "query/scoper.go:AddScope"]}
{"id": "C70", "title": "Encodings depend only on what a scoper answers", "statement": "Every query gives the same formula, error or panic, and the same numbers, with any two implementations of the Scoper interface that answer alike, in particular with the one of the library when the entries of its maps are in another order (Go leaves the order of iteration open), and with one written from the documentation alone as a stack of frames that hold their variables. For the text: two contexts whose maps differ only in the order of entries lead to the same results and to contexts that again differ only in that.", "quantifier": "all queries, contexts, scopers that answer alike, orders of map entries", "why_tests_cant": "A test sees the order of iteration that one run happened to use, and one implementation.", "anchors": ["query/scoper.go:baseScoper", "query/scoper.go:PopScope", "query/context.go:BasicQContext", "query/logop/forallguarded.go:Encoding"]}
{"id": "C71", "title": "Functions write only into slices and maps they made", "statement": "In the program read from the bytes of the Go files, every assignment to an element, delete and copy writes into a slice or map in a variable that the same function made (make, a literal, or a function that returns one it made), or into one of six listed fields (the state of a context and of the iterator of a quantifier). On every path through the function, whatever branches and however many turns of loops it takes, nothing else refers to the slice or map when it is written or appended to: it was not returned, stored, sliced or handed to a function since it was last made; so in a memory with arrays, those that anything else refers to keep their contents through the writes. Every append is x = append(x, ..) for such an x, or one of nine listed ones (the clauses of a formula, see C35; a value being read; the scopes of a context). Every run of the interpreter follows one of these paths.", "quantifier": "all functions and statements of the 64 files, all paths through them", "why_tests_cant": "A write through a shared array shows only in runs in which the other slice is read afterwards and capacities happen to fit.", "anchors": ["query/logop/forallguarded.go:Next", "query/extensions/dfs/utils.go:leafsAsConsts", "cnf/cnf.go:AppendSemantics", "query/predicates/isnode/var.go:Encoding"]}
