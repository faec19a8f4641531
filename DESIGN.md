# goexpdt in Rocq/Coq: design

The library turns queries about decision trees (DT-FOIL) into CNF, hands the CNF
to a SAT solver and reads the answer back.  The code under `/repo` (Go) is read as
text and re-expressed, function by function, as total computable Gallina
functions; every definition cites the file and lines it models.  The properties
(`properties.jsonl`) are theorems about these functions; `MANIFEST.json` says
which theorems belong to which property.

## What is modelled

| file in `rocq/theories` | models |
|---|---|
| `GoBase.v`   | Go outcomes (value / error / panic / endless loop), `strconv.Itoa`, `strconv.Atoi`, `bytes.Split` |
| `Cnf.v`      | `cnf/cnf.go` on immutable lists |
| `Query.v`    | `query/*.go`: instances, nodes, scoper, variable manager, context |
| `Walk.v`     | walks over the nodes: `nodeAsValuesIter.Next`, `leafsAsConsts`, the loops of `isnode.Const` and `allcomp.Const` |
| `Atoms.v`    | the `Encoding` methods of the 32 predicates and extensions |
| `Logop.v`    | query trees and the `Encoding` methods of `Not/And/Or/WithVar/ForAllGuarded` |
| `Compute.v`  | `compute/*.go`: `Step`, `Values`, combinators, `ComputeOptim` |

Finer models of the same code, each proved to agree with the ones above under
stated conditions (so that every theorem carries over), and to differ without:

| file | what it does not abstract from |
|---|---|
| `CnfHeap.v`  | slices: backing arrays, capacities, `append` in place, package-level slices; all of `Encoding` on top of them |
| `Buffers.v`  | the slice a quantifier's iterator overwrites is the slice its scope holds |
| `Ints.v`     | wrap-around of `int` in every computation with variable numbers |
| `Outside.v`  | sub-queries of types from outside the library: programs that call the context's methods |
| `Managers.v` | the `VarManager` interface: the encoders over any implementation |
| `Scopers.v` | the `Scoper` interface: the encoders over any implementation that answers as documented |
| `Interface.v` | the `Solver` and `Encodable` interfaces: any implementation of `Step`, `Values`, `Reset` behind `ComputeOptim` and the combinators |
| `Files.v`    | the file system: names from `CreateTemp`, truncation, single writes, removal, with other threads and processes in between |

The source text itself (C61, C63 to C67): `tools/go2coq.py` prints the Go functions of `/repo`
as terms of a small imperative language, `GoSource.v`; `GoLang.v` is the language
and its interpreter (scopes, structs as values, pointers into a heap, slices and
maps as values, `defer`, named results, panics).  `SrcBase.v` says which values
stand for the data of the model; `SrcLemmas.v` has the rules and tactics for
running programs symbolically.  Then, function by function and for all arguments,
that the text computes what the model says: `SrcCnf.v` (package cnf), `SrcQuery.v`
and `SrcCtx.v` (package query), `SrcPred.v`, `SrcNode.v` (subsumption, lel, isnode),
`SrcExt.v`, `SrcDfs.v`, `SrcHepr.v`, `SrcLeh.v`, `SrcLehC.v` (the extensions),
`SrcIter.v`, `SrcLogop.v` (the iterator of guarded quantifiers, the operators, and
by induction every query), `SrcValues.v`, `SrcSolver.v`, `SrcCompute.v` (package
compute and `ToFile`).

The bytes (C68): `GoText.v` has the 64 non-test Go files as strings, line by line,
printed by `tools/gotext.py`.  `GoParse.v` is a lexer and a recursive-descent parser
for the part of Go they use, `GoElab.v` resolves what needs declarations and types
(listed at the top of `GoParse.v`) and gives a program of `GoLang.v`, or nothing if
the files use something else.  Both are ordinary functions with a bound on nesting;
Coq computes that the 64 files give `GoSource.v`.  `GoTests.v` runs the reader and the
interpreter on small Go programs whose results the Go specification fixes (semicolons,
precedence, order of evaluation, shadowing, loops, switch, defer, structs, interfaces,
panics, slices, maps, the standard library); these are tests of the semantics.  Refused
by the reader or stuck in the interpreter, so that nothing is claimed: block comments,
`/` and `%`, the result of `copy`, map literals with elements, pointers to structs in
local variables, methods with value receivers called through pointers.

For package compute `GoLang.v` has an operating system: files by name, names from
`CreateTemp`, calls that may fail, programs that exit with a code and output or
cannot be started.  What happens may depend on how often `CreateTemp` and `Write`
were called, so a call may succeed once and fail the next time.  Left out: messages
of the system (constants), permissions, part of a line written by a failed write,
`Remove` failing, files written by the solver, other processes (C53 has those).  The
two functions given to `ComputeOptim` are pure functions from a variable, and from a
variable and a constant, to a query.  When the text panics nothing is said about the
memory and the files it leaves.

The functions of `examples/` are translated too (C67).  Standard output is a string
of the operating system that `fmt.Println` and `fmt.Printf` add to (`%d`, `%s` of a
string or a slice of strings).  A function literal is a single `return`; it keeps the
values its free variables have when it is made, which in these programs are not
changed later.  `run_main` runs the first statements (the tree and its context)
before the cell of the operating system is made, so that the context is cell 0 as in
the theorems on the library; statements that use the system would be stuck there.

Specifications, written without the encoders:

| file | specifies |
|---|---|
| `Spec.v`     | partial instances, decision trees as an inductive type and their node lists, the predicates on instances |
| `Meaning.v`  | what a component means for an assignment of instances to variables |
| `Truth.v`, `FirstOrder.v` | truth of a query (declarations as one block / as existential quantifiers) |
| `Dimacs.v`   | a reader for DIMACS files |
| `CnfSem.v`   | valuations and truth of clauses |
| `CnfHist.v`, `QueryHist.v` | all CNFs a program can build, all histories of context calls |
| `Run.v`      | outputs of a correct SAT solver |

Proofs: `GoLemmas QueryLemmas Sym AtomBase AtomSimple Counter TreeLemmas AtomTree
WalkConst WalkLemmas AtomRest AtomMain Form Master Block Ground Sat AtomCnf Evolve
Total Outcome Errors Names Answer Optim Size HeapLemmas HeapOps HeapEnc Shared
Chain Graph`.  `Reach.v` has the walks over any list of nodes.  Property theorems with their examples: `Prop*.v`, `Buffers.v`, `Ints.v`,
`Outside.v`, `Interface.v`.
`RepoTests.v` is the project's own test suite (every `_test.go` file, 1431 cases)
evaluated in the model; these are tests of the model, not proofs.
`Solver.v` is a DPLL solver proved correct; it is not part of the code and shows
that the premise "the solver is correct" can be met.

### Simplifications (also stated at the definitions)

* Go `int` is `Z`, `Dim()` a `nat`.  `Ints.v` removes this for variable numbers.
  Indices of features and nodes are below the length of a slice in memory.
* Maps are association lists in the order of insertion.  C70 shows that the order does
  not matter, for the model and for the text.
* An encoder is the sequence of its `CNFVar` calls and `Append*` calls in program
  order (`emit` lists), run against the context.  A clause is one literal list;
  its order and the order of number allocation are those of the code.
* Unbounded loops take fuel and give `Hang` without it; `Total.v` shows that the
  fuel given is enough whenever the loop ends.
* The operating system is an environment that decides which files can be created
  or written and what the k-th run of the solver does with the file.  The
  correctness of the solver is a premise of the theorems that need it.
* Error values are their messages; `%w` wrapping is the concatenation that
  `Error()` prints, `UnsatError` is kept apart.

### Not modelled

* Implementations of `Model` from outside the library with state, of `Scoper` that do
  not answer as documented, of `VarManager`
  outside of `Encoding`, and of
  `LogOpQ` ones that call methods that change scopes or whose errors wrap
  `UnsatError`.
* What a program that panics prints on standard error.
* Goroutines that share a context, a solver value or a model under construction.
  Nothing in the library starts a goroutine; `Files.v` covers threads with their
  own contexts and solver values.
* The Go runtime: memory limits, stack depth, garbage collection.

## How each property is proved

* C01-C04, C41: induction over clause lists; an inductive predicate for all ways
  of building a CNF.
* C05: round trip through an independent reader, by induction over the text.
* C06, C07, C09: invariants over operation histories.  C07 is false while scopes
  are open: witness, and the part that holds.
* C08: prefix decoding of separator-terminated fields.
* C10: false for nested quantifiers with equal IDs; proved otherwise.
* C11-C20: symbolic clause sets over triples (variable, feature, value).  For every
  valuation that satisfies the consistency clauses, the semantic clauses hold iff
  the specification does; a canonical valuation satisfies the consistency clauses.
* C21, C23, C24: induction over queries with an invariant on the context
  (soundness: every model of the consistency clauses; completeness: extending a
  canonical valuation).  Quantifiers are written out first (`Form.v`).
* C22: simulation of the walk by a path through the inductive tree.
* C25-C29: the above, the DIMACS round trip and the solver premise; well-founded
  descent for `ComputeOptim`.
* C30-C33, C36, C37: inductions over queries for arbitrary models and contexts.
* C34, C38, C39, C46: witnesses evaluated in the model; C34 also proved with
  `Reset` in between.
* C35: refinement between `CnfHeap.v` and `Cnf.v` with ownership of array cells.
* C40: inductions on lists.
* C42, C43, C48: instances of C26/C28 with the specification side worked out.
* C44: counting; C45: the loop's invariant.
* C47: C23 with a context that earlier queries have used.
* C49: a solver that chooses among the models (`Chain.v`) realises every descending
  walk; for HEPR such a walk enumerates all instances like a binary counter.
* C50: case analysis of the reader over all layouts.
* C51, C52: refinement, by induction over queries.
* C53: an ownership invariant over all interleavings; each thread by itself is
  simulated by `Compute.v` with a suitable environment.
* C54: induction over queries; literals of leaves are numbers of triples, literals
  of negations are not, so a valuation can be changed on the latter.
* C55: induction over the unfolding; a closed set of visited nodes for the walk of
  `allcomp` over shared nodes; witnesses for the rest.
* C56: induction over the turns with the recorded calls; the contract of the
  interface as an invariant of the loop.
* C57: the visited set is closed under children outside the stack, so it is closed
  when the stack is empty; the values are the answers along the stack.
* C58: each component by cases; the cases exclude each other.
* C59, C60: two encodings side by side with the list of pairs of equal variables; a
  pair is two numbers of one triple or two auxiliary variables of one negation.
* C61: symbolic execution of each function body with an invariant per loop.
* C63: the same for each component; induction over the query, with what encoding
  keeps of the context (distinct variables, number of open scopes, the model).
* C64: C63 with C23, C24 and C36.
* C65: as C61 and C63; induction over the combination, and over the turns of
  `ComputeOptim` with what a turn keeps of the context, the solver and the files.
* C66: C65 with C47, C28 and C42; new names of files are new, so the files of the
  user are those of the start.
* C67: the statements of the two functions run one by one, with C65 for the calls of
  the library, give the model for every operating system; then C42 with a case
  distinction (there is only one minimal reason), and C43.
* C68: computation (`vm_compute`) for the 64 files, then C64, C66 and C67.
* C69: the witnesses of the refuted properties, moved to the bytes with C63, C65, C68.
* C70: induction over the query with a relation between the states of two scopers that
  give the same answers; `frames` is a scoper written from the documentation alone.
* C71: computation over the program that C68 reads from the bytes; `Paths.v` defines the
  paths through a text, proves that runs follow them, and that a check of the text (two
  passes over each loop body) is right about all of them.  `C71_arrays` runs the events of
  a path in a memory with arrays: what anything else refers to keeps its contents.
* C62: by cases on the run; induction over the combination and over the turns.

## Findings

Behaviour of the code that differs from its documentation or from what a caller
may expect; each is proved in the file of the property.

1. `WithVar` leaves out the clauses of a variable that is already in the context:
   evaluating an unsatisfiable query twice in one context answers true (C34), and
   `ComputeOptim` twice in one context finds an instance the second time.
2. `WithVar` is a declaration, not the quantifier "there is": under `Not`, in two
   branches with one name, in two quantifiers with one ID, or again inside a
   quantifier it means something else (C46).
3. `Scoper.Reset` keeps the levels of variables (C07); `ScopeConst` takes the
   outermost scope of an ID (C10), and a constant with the empty ID is captured by
   a quantifier with the empty ID.
4. `isnode.Var` and `allcomp.Var` with one reachability generator, as the README
   asks for, define the same variables differently (C38).
5. `leh` const-var-const names its counter after the wrong constant; `hepr` writes
   the preferences [1,11] and [11,1] alike (C39).
6. `leh` const-var-const and const-const-var answer true for variables that are not
   full (C20); `leh` panics without features, `hepr` on an empty preference (C36).
7. Cyclic or out-of-range node lists make some components panic or loop (C37).
8. CNF methods share backing arrays: a CNF used as the receiver of two calls can
   change the result of the first (C35).
9. The README's query asks for negative completions, its text for positive ones
   (C48); `examples/evaluation.go` comments a different notion of determinant
   feature set than the one evaluated (C43).
10. `ComputeOptim` can need 2^dim + 1 calls with the order of `hepr`, without any
    quantifier, against the remark on polynomially many steps (C49).
11. Values with two blanks or a blank at the end of a v-line are an error, a line
    "v" panics (C50); exit code 0 is an error.
12. When no temporary file can be created `ComputeOptim` returns a zero result and
    no error (C62); `Values` of an undeclared variable allocates numbers and returns a
    shorter constant.
13. A constant obtained from `ScopeConst` changes when the quantifier moves on (C51).
14. A solver value used for two evaluations returns the instance of the later one
    (C53).
15. An outside component that uses a number it did not ask for can make a query
    unsatisfiable (C54).  In the project's tests, `variable_clauses` of
    `forallguarded_test.go` has wrong signs; the comparison in
    `internal/test/clauses.go` does not see signs.
16. After `UpdateTopV(MaxInt)` numbers wrap around and answers are wrong (C52).
17. On a model that tests a feature twice on a branch `ForAllGuarded` and `dfs` lose
    the value of the outer test, and `allcomp` counts contradictory branches; with
    a node shared by two parents `allcomp.Var` and its negation are both
    unsatisfiable; a listed node that no branch reaches makes negated `allcomp.Var`
    and `isnode.Var` satisfiable (C55).
18. The interface lets `UpdateTopV` refuse an update by returning false; `Not` and
    `Or` do not look, and with a manager that refuses the formula is wrong (C59).

## Trusted base

* The kernel of Coq 8.16.1, with `vm_compute` for examples and witnesses.
* `Print Assumptions` is run under every theorem of the manifest while building;
  each prints "Closed under the global context": no axioms.  (A list of seven
  `Coq.ssr.ssrunder.Under_rel.*` constants shows up in checks of the loaded
  libraries: they are parameters of a module type in Coq's own ssreflect plugin
  files, and no theorem here uses them.)
* The model: that the definitions listed above say what the cited Go code does,
  with the simplifications listed above.  `seeded/LOG.jsonl` records how the
  theorems react to wrong programs.
* The specification files listed above.
* For C61, C63 to C69 and C71: the semantics in `GoLang.v`, and that `GoSource.v` is the
  program in `/repo`: either `tools/go2coq.py` (what it resolves statically is listed
  at its top), or, by C68, the reader in `GoParse.v` and `GoElab.v` and that
  `GoText.v` has the bytes of the files (`python3 tools/gotext.py /repo` prints it
  again).  The reader was written after the translator and follows it, so a
  misreading of Go could be in both.  For the functions of these properties this is
  trusted in place of the model.  Slices are
  values there.  C71 lists every place of the files that writes into a slice or map: it
  is one the function made and nothing else refers to, or one of those C35 and C51 treat with shared arrays; that
  the memory of `C71_arrays` is what Go does for make, copy, assignment and append is trusted.
