(* Generated by tools/gotext.py: the Go files, byte for byte; do not edit. *)
From Verif Require Import GoBase.
Local Open Scope string_scope.
Local Open Scope list_scope.

(* every line ends with a newline *)
Definition lines (l : list string) : string :=
  fold_right (fun a b => (a ++ String (Ascii.ascii_of_N 10) b)%string) EmptyString l.

Definition text_cnf_cnf : string := lines [
"// cnf implements the CNF and Clause types for representing formulas in";
"// conjunctive normal form.";
"//";
"// This package makes a distinction between semantic and consistency clauses in";
"// CNF formulas. Whereas semantic clauses can be negated consistency clauses";
"// are supposed to be fixed, and thus will never be negated, as they represent";
"// the 'world' in which the truth value of a formula is being evaluated.";
"//";
"// For example: say we want to define a formula f that should be true if a";
"// partial instance has n or fewer features with value one. We define both the";
"// clauses that represent what it means to have any number m of features be";
"// equal to one (this would be the consistency clauses) and then the clauses";
"// whose meaning corresponds to not having more than n features be equal to one";
"// (semantic clauses). This way if we want to represent the formula g that is";
"// true if a partial instance has more than n features with value one we can";
"// simply define it as g=-f as the 'counting' clauses in f will not be negated.";
"package cnf";
"";
"import (";
"	""fmt""";
"	""os""";
"	""strconv""";
")";
"";
"// Clause represents a cnf formula's clause with integer variables where";
"// negated variables are negative.";
"type Clause []int";
"";
"// CNF represents a logical formula in conjoined normal form.";
"type CNF struct {";
"	// Top variable value used";
"	tv int";
"	// Semantic clauses";
"	sClauses []Clause";
"	// Consistency clauses";
"	cClauses []Clause";
"}";
"";
"var (";
"	// NegCluases is a slice of clauses that contains only an empty clauses";
"	// which is always evaluated as false.";
"	NegClauses []Clause = []Clause{{}}";
"	// TrueCNF is a trivially positive cnf formula.";
"	TrueCNF CNF = CNF{}";
"	// FalseCNF is a trivially negative cnf formula.";
"	FalseCNF CNF = CNF{sClauses: NegClauses}";
")";
"";
"// Create a new CNF struct from clauses. Clauses will be treated as semantic.";
"func FromClauses(clauses []Clause) CNF {";
"	ncnf := CNF{sClauses: clauses}";
"	ncnf.tv = maxVar(clauses)";
"	return ncnf";
"}";
"";
"// TopV return the largest variable value that has been assigned in the cnf";
"// formula.";
"func (c CNF) TopV() int {";
"	return c.tv";
"}";
"";
"// Negate the CNF semantic clauses. The resulting value of CNF's tv is the";
"// maximum between topv and the current value. This operation will set the CNF";
"// to an equivalent negation but it will not be equal to negating the";
"// underlying formula. Returns the new cnf.";
"func (c CNF) Negate(opt_topv ...int) CNF {";
"	var rcnf CNF";
"	var topv int = c.tv";
"";
"	// Why did the go team decide against optional arguments?";
"	if len(opt_topv) > 0 {";
"		topv = maxInt(topv, opt_topv[0])";
"	}";
"";
"	// Handle empty CNF case.";
"	if len(c.sClauses) == 0 {";
"		// An empty CNF is always SAT so to negate it we return an always false";
"		// CNF with a signle empty semantic clause.";
"		rcnf = c.AppendSemantics(Clause{})";
"		rcnf.tv = topv";
"		return rcnf";
"	}";
"";
"	// Handle empty clause in CNF case.";
"	if c.hasEmptySemanticClause() {";
"		// A CNF with an empty clause is never SAT so to negate it we set it as";
"		// an always true empty CNF.";
"		rcnf = CNF{cClauses: c.cClauses}";
"		rcnf.tv = topv";
"		return rcnf";
"	}";
"";
"	// Apply transformation to CNF semantic clauses.";
"	rcnf = CNF{";
"		tv:       topv,";
"		sClauses: c.sClauses,";
"		cClauses: c.cClauses,";
"	}";
"	rcnf.tseytinNegation(topv)";
"	return rcnf";
"}";
"";
"// Generate negation in place using Tseytin transformation. Does not check if";
"// c is nil.";
"func (c *CNF) tseytinNegation(tv int) {";
"	clauses := []Clause{}";
"	enclits := Clause{}";
"";
"	for _, clause := range c.sClauses {";
"		// I would rather this function not return errors so we handle the case";
"		// in which tseytin's transform is not valid (empty clause) by shoving";
"		// in the appropriate negation and returning.";
"		if len(clause) == 0 { // An empty clause results in a false formula.";
"			c.sClauses = nil";
"			c.tv = tv";
"			return";
"		}";
"";
"		auxv := -clause[0]";
"		if len(clause) > 1 {";
"			tv += 1";
"			auxv = int(tv)";
"			// Direct implication.";
"			for _, lit := range clause {";
"				clauses = append(clauses, Clause{-lit, -auxv})";
"			}";
"			// Oposite implication.";
"			clauses = append(clauses, append(clause, auxv))";
"		}";
"";
"		// Literals representing negated clauses.";
"		enclits = append(enclits, auxv)";
"	}";
"";
"	// If no errors were found then update CNF.";
"	c.cClauses = append(c.cClauses, clauses...)";
"	c.tv = tv";
"";
"	// Generate bidirectional implication from new enc literal and enclits.";
"	if len(enclits) == 1 {";
"		c.sClauses = []Clause{enclits}";
"		return";
"	}";
"";
"	c.addNegationIFFClauses(enclits)";
"}";
"";
"// Add ""if and only if"" clause for the passed enclits to CNF. Does not check if";
"// c is nil.";
"func (c *CNF) addNegationIFFClauses(enclits Clause) {";
"	c.tv += 1";
"	auxv := int(c.tv)";
"";
"	for _, lit := range enclits {";
"		c.cClauses = append(c.cClauses, Clause{-lit, auxv})";
"	}";
"";
"	c.cClauses = append(c.cClauses, append(enclits, -auxv))";
"	c.sClauses = []Clause{{auxv}}";
"}";
"";
"// Conjunction generates extend the methods caller semantic and consistency";
"// clauses with those from the passed CNF.";
"func (c CNF) Conjunction(oc CNF) CNF {";
"	rcnf := c.AppendSemantics(oc.sClauses...)";
"	rcnf.cClauses = c.cClauses";
"	rcnf = rcnf.AppendConsistency(oc.cClauses...)";
"	return rcnf";
"}";
"";
"// AppendSpemantics appends semantic clauses to CNF and update tv value.";
"func (c CNF) AppendSemantics(clauses ...Clause) CNF {";
"	topv := maxInt(c.tv, maxVar(clauses))";
"	return CNF{";
"		tv:       topv,";
"		sClauses: append(c.sClauses, clauses...),";
"		cClauses: c.cClauses,";
"	}";
"}";
"";
"// AppendConsistency appends consistency clauses to CNF and update tv value.";
"func (c CNF) AppendConsistency(clauses ...Clause) CNF {";
"	topv := maxInt(c.tv, maxVar(clauses))";
"	return CNF{";
"		tv:       topv,";
"		sClauses: c.sClauses,";
"		cClauses: append(c.cClauses, clauses...),";
"	}";
"}";
"";
"// ToBytes returns CNF formula as bytes in DIMACS CNF format.";
"func (c CNF) ToBytes() []byte {";
"	bString := fmt.Sprintf(";
"		""p cnf %d %d\n"",";
"		c.tv,";
"		len(c.sClauses)+len(c.cClauses),";
"	)";
"";
"	for _, clause := range c.sClauses {";
"		bString += fmt.Sprintf(""%s\n"", clauseToDIMACS(clause))";
"	}";
"";
"	for _, clause := range c.cClauses {";
"		bString += fmt.Sprintf(""%s\n"", clauseToDIMACS(clause))";
"	}";
"";
"	return []byte(bString)";
"}";
"";
"// ToFile writes CNF formula to file in DIMACS CNF format.";
"func (c CNF) ToFile(path string) error {";
"	// Open file";
"	f, err := os.Create(path)";
"	if err != nil {";
"		return err";
"	}";
"	defer f.Close()";
"";
"	// Write CNF formula";
"	if _, err = f.WriteString(";
"		fmt.Sprintf(""p cnf %d %d\n"", c.tv, len(c.sClauses)+len(c.cClauses)),";
"	); err != nil {";
"		return err";
"	}";
"";
"	for _, clause := range c.sClauses {";
"		if _, err = f.WriteString(";
"			fmt.Sprintf(""%s\n"", clauseToDIMACS(clause)),";
"		); err != nil {";
"			return err";
"		}";
"	}";
"";
"	for _, clause := range c.cClauses {";
"		if _, err = f.WriteString(";
"			fmt.Sprintf(""%s\n"", clauseToDIMACS(clause)),";
"		); err != nil {";
"			return err";
"		}";
"	}";
"";
"	return nil";
"}";
"";
"// Clauses return CNF's semantic clauses and consistency clauses.";
"func (c CNF) Clauses() ([]Clause, []Clause) {";
"	return c.sClauses, c.cClauses";
"}";
"";
"// TriviallyTrue returns true if the underlying cnf formula is... trivially";
"// true. Otherwise returns false.";
"func (c CNF) TriviallyTrue() bool {";
"	return len(c.sClauses) == 0 && len(c.cClauses) == 0";
"}";
"";
"// TriviallyFalse returns true if the underlying cnf formula is... trivially";
"// false. Otherwise returns false.";
"func (c CNF) TriviallyFalse() bool {";
"	for _, cl := range c.sClauses {";
"		if len(cl) == 0 {";
"			return true";
"		}";
"	}";
"	for _, cl := range c.cClauses {";
"		if len(cl) == 0 {";
"			return true";
"		}";
"	}";
"	return false";
"}";
"";
"func (c CNF) hasEmptySemanticClause() bool {";
"	for _, cl := range c.sClauses {";
"		if len(cl) == 0 {";
"			return true";
"		}";
"	}";
"	return false";
"}";
"";
"// Return clause in DIMACS CNF format including trailing 0.";
"func clauseToDIMACS(clause Clause) string {";
"	cString := """"";
"";
"	for _, v := range clause {";
"		cString += strconv.Itoa(v) + "" """;
"	}";
"	cString += ""0""";
"";
"	return cString";
"}";
"";
"// maxVar returns the absolute value of the largest variable in a slice of";
"// clauses.";
"func maxVar(clauses []Clause) int {";
"	var topv int = 0";
"	for _, cl := range clauses {";
"		for _, v := range cl {";
"			absV := absInt(v)";
"			if absV > topv {";
"				topv = absV";
"			}";
"		}";
"	}";
"	return topv";
"}";
"";
"// absInt returns the absolute value of an integer.";
"func absInt(v int) int {";
"	if v > 0 {";
"		return v";
"	}";
"	return -v";
"}";
"";
"// maxUInt returns the maximum between two unsinged integers.";
"func maxInt(v1, v2 int) int {";
"	if v1 > v2 {";
"		return v1";
"	}";
"	return v2";
"}"
].

Definition text_compute_boolcomb : string := lines [
"package compute";
"";
"import (";
"	""errors""";
"";
"	""github.com/jtcaraball/goexpdt/query""";
")";
"";
"// QDTFCombinator represents a query in the third level of the Q-DT-Foil logic,";
"// that is, a boolean combination of sub-queries in the logic that do not share";
"// common variables.";
"type QDTFCombinator interface {";
"	// Sat returns true if and only if the query.";
"	Sat(ctx query.QContext, solver Solver) (bool, error)";
"}";
"";
"// AndCombinator is satisfiable if and only if all its elements are.";
"type AndCombinator []QDTFCombinator";
"";
"func (ac AndCombinator) Sat(ctx query.QContext, solver Solver) (bool, error) {";
"	for _, elem := range ac {";
"		sat, err := elem.Sat(ctx, solver)";
"		if err != nil {";
"			return false, err";
"		}";
"";
"		if !sat {";
"			return false, nil";
"		}";
"	}";
"";
"	return true, nil";
"}";
"";
"// OrCombinator is satisfiable if any one of its elements is.";
"type OrCombinator []QDTFCombinator";
"";
"func (oc OrCombinator) Sat(ctx query.QContext, solver Solver) (bool, error) {";
"	for _, elem := range oc {";
"		sat, err := elem.Sat(ctx, solver)";
"		if err != nil {";
"			return false, err";
"		}";
"";
"		if sat {";
"			return true, nil";
"		}";
"	}";
"";
"	return false, nil";
"}";
"";
"// QDTFAtom represents a single atomic query in the third level of the";
"// Q-DT-Foil logic. As SAT solvers can not directly answer over queries using";
"// universal quantifiers it is necessary to negate them and re-interpret the";
"// solver's answer.";
"type QDTFAtom struct {";
"	// Query in the third level of the Q-DT-Foil.";
"	Query Encodable";
"	// Negated is true if the original query used universal quantifiers and";
"	// thus the answer of Sat should be negated.";
"	Negated bool";
"}";
"";
"func (a QDTFAtom) Sat(";
"	ctx query.QContext,";
"	solver Solver,";
") (bool, error) {";
"	err := solver.Step(a.Query, ctx)";
"	if err != nil {";
"		if errors.Is(err, UnsatError) {";
"			return a.Negated, nil";
"		}";
"";
"		return false, err";
"	}";
"";
"	return !a.Negated, nil";
"}"
].

Definition text_compute_compute : string := lines [
"// The compute package allows for the computation Opt-DT-Foil through the";
"// ComputeOptim function and evaluation of Q-DT-Foil formulas through the";
"// various QDTFCombinator interface implementations.";
"//";
"// The Solver interface is defined in order to interact with SAT solvers using";
"// the DIMACS CNF standard.";
"package compute"
].

Definition text_compute_optimum : string := lines [
"package compute";
"";
"import (";
"	""errors""";
"	""os""";
"";
"	""github.com/jtcaraball/goexpdt/query""";
"	""github.com/jtcaraball/goexpdt/query/logop""";
")";
"";
"// OptOutput corresponds to the output of an optimization computation alongside";
"// additional information about its execution.";
"type OptOutput struct {";
"	// Found is true if a partial instance was computed.";
"	Found bool";
"	// Value of the partial instance computed.";
"	Value query.QConst";
"	// Calls made to the SAT solver during the computation process.";
"	Calls int";
"}";
"";
"type (";
"	// VCOrder is a constructor for an encodable formula representing a partial";
"	// strict order between instances represented as a query variable and a";
"	// query constant.";
"	// If the formula contains a ""For All Guarded"" operator there is no";
"	// guarantee that the computation will conclude in a polynomial amount of";
"	// steps and if the order is not strict then computation WILL NOT end at";
"	// all.";
"	VCOrder func(v query.QVar, c query.QConst) Encodable";
"	// SVFormula is a constructor for a single variable formula.";
"	SVFormula func(v query.QVar) Encodable";
")";
"";
"// ComputeOptim computes the optimal instance that satisfies the formula";
"// generated by fg according to the order generated by og.";
"// A target query variable v must be provided in order to ensure there are no";
"// collisions with variables used by the formulas generated by fg and og.";
"func ComputeOptim(";
"	fg SVFormula,";
"	og VCOrder,";
"	v query.QVar,";
"	ctx query.QContext,";
"	solver Solver,";
") (OptOutput, error) {";
"	var bm []query.QConst";
"";
"	tmpfp, err := os.CreateTemp("""", ""tmp.cnf"")";
"	if err != nil {";
"		return OptOutput{}, nil";
"	}";
"	defer func() {";
"		tmpfp.Close()";
"		os.Remove(tmpfp.Name())";
"	}()";
"";
"	if err = solver.Step(logop.WithVar{I: v, Q: fg(v)}, ctx); err != nil {";
"		if errors.Is(err, UnsatError) {";
"			return OptOutput{false, query.QConst{}, 1}, nil";
"		}";
"";
"		return OptOutput{false, query.QConst{}, 0}, err";
"	}";
"";
"	steps := 1";
"";
"	for {";
"		steps += 1";
"";
"		bm, err = solver.Values([]query.QVar{v}, ctx)";
"		if err != nil {";
"			return OptOutput{false, query.QConst{}, 0}, err";
"		}";
"";
"		ctx.Reset()";
"";
"		err = solver.Step(";
"			logop.WithVar{";
"				I: v,";
"				Q: logop.And{";
"					Q1: fg(v),";
"					Q2: og(v, bm[0]),";
"				},";
"			},";
"			ctx,";
"		)";
"		if err != nil {";
"			if errors.Is(err, UnsatError) {";
"				break";
"			}";
"			return OptOutput{false, query.QConst{}, 0}, err";
"		}";
"	}";
"";
"	return OptOutput{true, bm[0], steps}, nil";
"}"
].

Definition text_compute_solver : string := lines [
"package compute";
"";
"import (";
"	""bytes""";
"	""errors""";
"	""os""";
"	""os/exec""";
"	""strconv""";
"";
"	""github.com/jtcaraball/goexpdt/cnf""";
"	""github.com/jtcaraball/goexpdt/query""";
")";
"";
"// UnsatError is used as a sentinel for query satisfiability computation.";
"var UnsatError = errors.New(""Formula is not satisfiable"")";
"";
"// Encodable query that can be evaluated by a Solver.";
"type Encodable interface {";
"	// Encoding of caller as a cnf formula.";
"	Encoding(ctx query.QContext) (cnf.CNF, error)";
"}";
"";
"// Solver allows to determine if a valuation that makes a query true exists and";
"// subsequently retrieve particular assignation in it based on query variables.";
"type Solver interface {";
"	// Values assigned to query variables in the valuation returned by the last";
"	// successful call to Step. ctx should be the same as the one passed in the";
"	// Step call.";
"	Values(vars []query.QVar, ctx query.QContext) ([]query.QConst, error)";
"	// Step determines if a valuation that makes q true, in ctx, exists and if";
"	// so records it to be accessed by calling Values. If q is not satisfiable";
"	// then error == UnsatError.";
"	Step(q Encodable, ctx query.QContext) error";
"}";
"";
"// binSolver holds a path to a SAT solver's executable binary and its outputs,";
"// both of which can be accessed making use of the Solver interface.";
"type binSolver struct {";
"	output     []byte";
"	solverPath string";
"}";
"";
"// BinSolver that exposes a SAT solver's executable binary and holds its";
"// outputs. An error is returned if the path provided does not correspond to a";
"// valid SAT solver executable.";
"func BinSolver(solverPath string) (Solver, error) {";
"	// TODO: Look into how to determine if the path corresponds to a SAT solver";
"	// executable.";
"	if _, err := os.Stat(solverPath); err != nil {";
"		return nil, err";
"	}";
"";
"	return &binSolver{solverPath: solverPath}, nil";
"}";
"";
"func (s *binSolver) Step(";
"	q Encodable,";
"	ctx query.QContext,";
") error {";
"	// Create tmp encoding file";
"	encFile, err := os.CreateTemp("""", ""tmp.cnf"")";
"	if err != nil {";
"		return err";
"	}";
"	defer func() {";
"		encFile.Close()";
"		os.Remove(encFile.Name())";
"	}()";
"";
"	// Write formula as cnf to filePath.";
"	cnf, err := q.Encoding(ctx)";
"	if err != nil {";
"		return err";
"	}";
"	if err = cnf.ToFile(encFile.Name()); err != nil {";
"		return err";
"	}";
"";
"	// Create solver command and run it.";
"	cmd := exec.Command(s.solverPath, encFile.Name())";
"";
"	code, output, err := runSolver(cmd)";
"	if err != nil {";
"		return err";
"	}";
"	if code == 20 {";
"		return UnsatError";
"	}";
"	s.output = output";
"";
"	return nil";
"}";
"";
"// runSolver takes in the solver as an os/exec command and returns exit code";
"// and stdout as bytes.";
"func runSolver(cmd *exec.Cmd) (int, []byte, error) {";
"	// Capturing stderr to debug kissat errors.";
"	var stderr, stdout bytes.Buffer";
"	cmd.Stderr = &stderr";
"	cmd.Stdout = &stdout";
"	err := cmd.Run()";
"";
"	// Attempt to cast error to exit error to read exit code.";
"	if exitErr, ok := err.(*exec.ExitError); ok {";
"		exitCode := exitErr.ExitCode()";
"		// If exit code is not 10 or 20 then solver failed to run and an error";
"		// has to be thrown.";
"		if exitCode != 10 && exitCode != 20 {";
"			return exitCode, nil, errors.New(stderr.String())";
"		}";
"		// If it is just return it alongside stdout.";
"		return exitErr.ExitCode(), stdout.Bytes(), nil";
"	} else if err != nil {";
"		return 0, nil, err";
"	}";
"";
"	return 0, nil, errors.New(""Solver exit code could not be recovered"")";
"}";
"";
"func (s *binSolver) Values(";
"	vars []query.QVar,";
"	ctx query.QContext,";
") ([]query.QConst, error) {";
"	out := make([]query.QConst, len(vars))";
"";
"	for i, v := range vars {";
"		c, err := varValueFromBytes(s.output, v, ctx)";
"		if err != nil {";
"			return nil, err";
"		}";
"		out[i] = c";
"	}";
"";
"	return out, nil";
"}";
"";
"// varValueFromBytes returns the value of variable v from a solvers output";
"// passed as a byte slice.";
"func varValueFromBytes(";
"	out []byte,";
"	v query.QVar,";
"	ctx query.QContext,";
") (query.QConst, error) {";
"	var c query.QConst";
"	vval := make(map[int]bool)";
"	vfilter := variableFilter(v, ctx)";
"";
"	for _, line := range bytes.Split(out, []byte(""\n"")) {";
"		if len(line) == 0 || line[0] != byte(118) {";
"			continue";
"		}";
"		for _, vb := range bytes.Split(line[2:], []byte("" "")) {";
"			val, err := strconv.Atoi(string(vb))";
"			if err != nil {";
"				return query.QConst{}, err";
"			}";
"			absVal := iAbs(val)";
"			if vfilter[absVal] {";
"				vval[absVal] = val > 0";
"			}";
"		}";
"	}";
"";
"	for i := 0; i < ctx.Dim(); i++ {";
"		if vval[ctx.CNFVar(v, i, int(query.BOT))] {";
"			c.Val = append(c.Val, query.BOT)";
"			continue";
"		}";
"		if vval[ctx.CNFVar(v, i, int(query.ONE))] {";
"			c.Val = append(c.Val, query.ONE)";
"			continue";
"		}";
"		if vval[ctx.CNFVar(v, i, int(query.ZERO))] {";
"			c.Val = append(c.Val, query.ZERO)";
"			continue";
"		}";
"	}";
"";
"	return c, nil";
"}";
"";
"// variableFilter returns a map filter for target variable values.";
"func variableFilter(v query.QVar, ctx query.QContext) map[int]bool {";
"	f := make(map[int]bool)";
"";
"	for i := 0; i < ctx.Dim(); i++ {";
"		f[ctx.CNFVar(v, i, int(query.BOT))] = true";
"		f[ctx.CNFVar(v, i, int(query.ZERO))] = true";
"		f[ctx.CNFVar(v, i, int(query.ONE))] = true";
"	}";
"";
"	return f";
"}";
"";
"// iAbs returns the absolute value of the integer v.";
"func iAbs(v int) int {";
"	if v > 0 {";
"		return v";
"	}";
"	return -v";
"}"
].

Definition text_query_context : string := lines [
"package query";
"";
"// QContext provides a unified interface for passing the Scoper, VarManager and";
"// Model interfaces to a query components.";
"type QContext interface {";
"	Scoper";
"	VarManager";
"	Model";
"	// Reset call the reset method of the embedded interfaces.";
"	Reset()";
"}";
"";
"type baseQContext struct {";
"	baseScoper";
"	baseVarManager";
"	Model";
"}";
"";
"// A BasicQContext implements a context with and incremental variable";
"// assignment and concatenation based instance variable and constant scoping. A";
"// BaiscQContext uses concatenation based scoping with the unit serparator";
"// caracater (ascii 31) as seperator and so it should be avoided when naming";
"// elements.";
"func BasicQContext(model Model) QContext {";
"	return &baseQContext{";
"		baseScoper:     baseScoper{vars: make(map[QVar]int)},";
"		baseVarManager: baseVarManager{vars: make(map[varRep]int)},";
"		Model:          model,";
"	}";
"}";
"";
"// Reset the context's scoper and variable manager to their original state.";
"func (qc *baseQContext) Reset() {";
"	if qc == nil {";
"		return";
"	}";
"	qc.baseScoper.Reset()";
"	qc.baseVarManager.Reset()";
"}"
].

Definition text_query_instances : string := lines [
"package query";
"";
"import (";
"	""fmt""";
"	""strings""";
")";
"";
"// QVar corresponds to the identifier of a partial instance in a query.";
"type QVar string";
"";
"// FeatV corresponds to the value of a partial instance.";
"type FeatV int";
"";
"// QConst corresponds to an explicit partial instance in a query. It may not";
"// have an assigned value to accomodate for guarded quantifiers.";
"type QConst struct {";
"	ID  string";
"	Val []FeatV";
"}";
"";
"// Supported feature values.";
"const (";
"	// A BOT value represents the bottom feature value of a partial instance.";
"	BOT FeatV = iota";
"	// A ZERO value represents the zero feature value of a partial instance.";
"	ZERO";
"	// A ONE value represents the one feature value of a partial instance.";
"	ONE";
")";
"";
"// AllBotConst returns a all bot constant len dim with a zero value id.";
"func AllBotConst(dim int) QConst {";
"	feats := make([]FeatV, dim)";
"";
"	for i := 0; i < dim; i++ {";
"		feats[0] = BOT";
"	}";
"";
"	return QConst{Val: feats}";
"}";
"";
"// IsFull return true if constant caller has no features equal to BOT.";
"func (c QConst) IsFull() bool {";
"	for _, ft := range c.Val {";
"		if ft == BOT {";
"			return false";
"		}";
"	}";
"	return true";
"}";
"";
"// AsString returns the caller's features represented as a string.";
"func (c QConst) AsString() string {";
"	var sb strings.Builder";
"	for _, ft := range c.Val {";
"		switch ft {";
"		case BOT:";
"			sb.WriteRune(95) // ""_""";
"		case ZERO:";
"			sb.WriteRune(48) // ""0""";
"		case ONE:";
"			sb.WriteRune(49) // ""1""";
"		}";
"	}";
"	return sb.String()";
"}";
"";
"// BotCount return number of bot features in constant.";
"func (c QConst) BotCount() int {";
"	count := 0";
"	for _, ft := range c.Val {";
"		if ft == BOT {";
"			count += 1";
"		}";
"	}";
"	return count";
"}";
"";
"// EqualValue returns true if the value of the callers equals the value of t.";
"func (c QConst) EqualValue(t QConst) bool {";
"	if len(c.Val) != len(t.Val) {";
"		return false";
"	}";
"";
"	for i, v := range c.Val {";
"		if v != t.Val[i] {";
"			return false";
"		}";
"	}";
"";
"	return true";
"}";
"";
"// ValidateConstsDim returns an error if any of passed consts have length";
"// different to d.";
"func ValidateConstsDim(";
"	d int,";
"	consts ...QConst,";
") error {";
"	for i, c := range consts {";
"		if len(c.Val) != d {";
"			return fmt.Errorf(";
"				""constant%d: wrong dim %d (%d feats in context)"",";
"				i+1,";
"				len(c.Val),";
"				d,";
"			)";
"		}";
"	}";
"	return nil";
"}"
].

Definition text_query_model : string := lines [
"package query";
"";
"// Model provides functionality to access properties of models.";
"type Model interface {";
"	// Dim returns the dimension of the model. This value is expected to be";
"	// always positive.";
"	Dim() int";
"	// Nodes returns a slice composed of the model's nodes as Node type. The";
"	// node at index 0 must correspond to the model's root.";
"	Nodes() []Node";
"}";
"";
"// Node represents a node in the model, be it a leaf or an internal one.";
"// This type is meant to be used for passing a model's nodes a fixed slice and";
"// thus the 'pointers' to a node's children should be their index in the slice.";
"type Node struct {";
"	// Value of a leaf node.";
"	Value bool";
"	// Feat index of the feature that an internal node decides on. This value";
"	// is expected to always be positive.";
"	Feat int";
"	// ZChild is the index on the node slice corresponding to the node's zero";
"	// child. Use NoChild value to indicate the node has no child.";
"	ZChild int";
"	// OChild is the index on the node slice corresponding to the node's one";
"	// child. Use NoChild value to indicate the node has no child.";
"	OChild int";
"}";
"";
"// NoChild is used in a Node's ZChild or OChild fields to indicate that it does";
"// not have a child.";
"const NoChild int = -1";
"";
"// IsLeaf returns true if the node does not have a child and thus is a leaf.";
"func (n Node) IsLeaf() bool {";
"	return n.ZChild < 0 || n.OChild < 0";
"}"
].

Definition text_query_query : string := lines [
"// The query package defines the variable and constant partial instance types";
"// as well as the interfaces that make up the QContext type used by a query";
"// component.";
"//";
"// A basic implementation of QContext is also provided.";
"package query"
].

Definition text_query_scoper : string := lines [
"package query";
"";
"import (";
"	""errors""";
"	""strconv""";
"	""strings""";
")";
"";
"// Scoper manages scope for guarded quantifiers.";
"type Scoper interface {";
"	// ScopeVar returns an instance variable that corresponds to v ""inside"" the";
"	// stack of scopes at the moment it was first initialized.";
"	// For any two variables u, v and any two stacks s1, s2 it must hold that";
"	// if u != v then s1:ScopeQVar(u) != s2:ScopeQVar(v).";
"	ScopeVar(v QVar) QVar";
"	// AddVar initializes a variable and assigns it to the scope at the top";
"	// of the stack.";
"	AddVar(v QVar)";
"	// ScopeConst returns an instance constant with its value field set match";
"	// the value of the scope targeting c at the moment its called if it";
"	// exists. If the constant is scoped then ok==true else ok==false and c";
"	// is returned.";
"	ScopeConst(c QConst) (scopedQConst QConst, ok bool)";
"	// AddScope adds a scope with target==tgt to the stack.";
"	AddScope(tgt string)";
"	// PopScope removes the last scope in the stack in addition to any";
"	// variables added to it.";
"	PopScope() error";
"	// SetScope adds the value and corresponding index to the last scope in the";
"	// stack. Returns an error if there are no scopes.";
"	SetScope(vIdx int, val []FeatV) error";
"	// Reset removes all scopes in the stack.";
"	Reset()";
"}";
"";
"type baseScoper struct {";
"	builder strings.Builder // Scope string builder";
"	scopes  []scope         // Scope stack";
"	vars    map[QVar]int    // Variable to stack level mapping";
"}";
"";
"type scope struct {";
"	target string  // QConst target of the corresponding guarded quantifier.";
"	value  []FeatV // The value to be assigned target.";
"	vIdx   int     // The index of the value to be assigned.";
"}";
"";
"func (s *baseScoper) ScopeVar(v QVar) QVar {";
"	if len(s.scopes) == 0 {";
"		return v";
"	}";
"";
"	defer func() {";
"		s.builder.Reset()";
"	}()";
"";
"	s.builder.WriteString(string(v))";
"";
"	for i := 0; i < s.vars[v]; i++ {";
"		s.builder.WriteRune(31) // Unit separator";
"		s.builder.WriteString(s.scopes[i].target)";
"		s.builder.WriteRune(31) // Unit separator";
"		s.builder.WriteString(strconv.Itoa(s.scopes[i].vIdx))";
"	}";
"";
"	return QVar(s.builder.String())";
"}";
"";
"func (s *baseScoper) AddVar(v QVar) {";
"	if len(s.scopes) == 0 {";
"		return";
"	}";
"";
"	if _, ok := s.vars[v]; ok {";
"		return";
"	}";
"	s.vars[v] = len(s.scopes)";
"}";
"";
"func (s *baseScoper) ScopeConst(c QConst) (QConst, bool) {";
"	for _, g := range s.scopes {";
"		if g.target == c.ID {";
"			return QConst{c.ID, g.value}, true";
"		}";
"	}";
"	return c, false";
"}";
"";
"func (s *baseScoper) AddScope(tgt string) {";
"	s.scopes = append(s.scopes, scope{target: tgt})";
"}";
"";
"func (s *baseScoper) PopScope() error {";
"	if len(s.scopes) == 0 {";
"		return errors.New(""Invalid scope removal in empty scoper"")";
"	}";
"";
"	for v, i := range s.vars {";
"		if i == len(s.scopes) {";
"			delete(s.vars, v)";
"		}";
"	}";
"";
"	s.scopes = s.scopes[:len(s.scopes)-1]";
"";
"	return nil";
"}";
"";
"func (s *baseScoper) SetScope(vIdx int, val []FeatV) error {";
"	slen := len(s.scopes)";
"	if slen == 0 {";
"		return errors.New(""Invalid setting of scope in empty scoper"")";
"	}";
"	(s.scopes)[slen-1].vIdx = vIdx";
"	(s.scopes)[slen-1].value = val";
"	return nil";
"}";
"";
"func (s *baseScoper) Reset() {";
"	s.scopes = nil";
"}"
].

Definition text_query_varmanager : string := lines [
"package query";
"";
"// VarManager manages the creation and usage of cnf variables. Variables are";
"// denoted by the triple (QVar, int, int) and are assigned positive integer";
"// values. All variables must be assigned a value equal or greater than 1 as 0";
"// is reserved by the DIMACS standard.";
"type VarManager interface {";
"	// TopV returns the value of largest integer assigned to a variable. This";
"	// value is expected to always be positive.";
"	TopV() int";
"	// UpdateTopV updates the value of the next integer to be assigned to a cnf";
"	// variable. Returns true if the update is valid and took effect.";
"	UpdateTopV(v int) bool";
"	// CNFVar return the integer value assigned to the variable given. If the";
"	// variable does not exists it first assigns a value to it. This value is";
"	// expected to always be positive.";
"	CNFVar(v QVar, idx, val int) int";
"	// CNFVarExists return true if the passed variable exists.";
"	CNFVarExists(v QVar, idx, val int) bool";
"	// Reset removes all variables and sets the next variable to be assigned";
"	// to 1.";
"	Reset()";
"}";
"";
"type baseVarManager struct {";
"	topv int            // Value of the largest variable assigned.";
"	vars map[varRep]int // User variables map.";
"}";
"";
"type varRep struct {";
"	v   QVar";
"	idx int";
"	val int";
"}";
"";
"func (vm *baseVarManager) TopV() int {";
"	return vm.topv";
"}";
"";
"func (vm *baseVarManager) UpdateTopV(v int) bool {";
"	if vm.topv > v {";
"		return false";
"	}";
"	vm.topv = v";
"	return true";
"}";
"";
"func (vm *baseVarManager) CNFVar(v QVar, idx, value int) int {";
"	vr := varRep{v, idx, value}";
"	if val, ok := vm.vars[vr]; ok {";
"		return val";
"	}";
"	vm.topv += 1";
"	vm.vars[vr] = vm.topv";
"	return vm.topv";
"}";
"";
"func (vm *baseVarManager) CNFVarExists(v QVar, idx, value int) bool {";
"	_, ok := vm.vars[varRep{v, idx, value}]";
"	return ok";
"}";
"";
"func (vm *baseVarManager) Reset() {";
"	vm.topv = 0";
"	vm.vars = make(map[varRep]int)";
"}"
].

Definition text_query_extensions_allcomp_allcomp : string := lines [
"// AllPos and AllNeg formulas in the DT-FOIL logic.";
"//";
"// Given a model T and partial instance e and a truth value c we say that T";
"// satisfies AllComp(e, c) if and only if all completions e' of e receive the";
"// classification c over T.";
"package allcomp"
].

Definition text_query_extensions_allcomp_const : string := lines [
"package allcomp";
"";
"import (";
"	""errors""";
"	""fmt""";
"";
"	""github.com/jtcaraball/goexpdt/cnf""";
"	""github.com/jtcaraball/goexpdt/query""";
")";
"";
"// Const is the constant version of the AllComp extension.";
"type Const struct {";
"	I query.QConst";
"	// LeafValue represents the leaf truth value. That is, if LeafValue = true";
"	// then the extension takes the meaning of AllPos and if LeafValue = false";
"	// the meaning of AllNeg.";
"	LeafValue bool";
"}";
"";
"// Encoding returns a CNF that is true if and only if the query constant ac.I";
"// is such that all its completions are evaluated as ac.LeafValue by the model.";
"func (ac Const) Encoding(ctx query.QContext) (cnf.CNF, error) {";
"	if ctx == nil {";
"		return cnf.CNF{}, errors.New(""Invalid encoding with nil ctx"")";
"	}";
"";
"	sc, _ := ctx.ScopeConst(ac.I)";
"	if err := query.ValidateConstsDim(ctx.Dim(), sc); err != nil {";
"		return cnf.CNF{}, err";
"	}";
"";
"	nodes := ctx.Nodes()";
"	if len(nodes) == 0 {";
"		return cnf.CNF{}, errors.New(""Invalid encoding on empty model"")";
"	}";
"";
"	var n query.Node";
"	dim := ctx.Dim()";
"	nvisited := make(map[int]struct{})";
"	nstack := []query.Node{nodes[0]}";
"";
"	for len(nstack) > 0 {";
"		n, nstack = nstack[len(nstack)-1], nstack[:len(nstack)-1]";
"";
"		if n.IsLeaf() {";
"			if n.Value != ac.LeafValue {";
"				return cnf.FalseCNF, nil";
"			}";
"			continue";
"		}";
"";
"		if n.Feat < 0 || n.Feat >= dim {";
"			return cnf.CNF{}, fmt.Errorf(";
"				""Node's feature %d is out of range [0, %d]"",";
"				n.Feat,";
"				dim-1,";
"			)";
"		}";
"";
"		switch sc.Val[n.Feat] {";
"		case query.BOT:";
"			if _, ok := nvisited[n.ZChild]; !ok {";
"				nvisited[n.ZChild] = struct{}{}";
"				nstack = append(nstack, nodes[n.ZChild])";
"			}";
"			if _, ok := nvisited[n.OChild]; !ok {";
"				nvisited[n.OChild] = struct{}{}";
"				nstack = append(nstack, nodes[n.OChild])";
"			}";
"		case query.ZERO:";
"			if _, ok := nvisited[n.ZChild]; !ok {";
"				nvisited[n.ZChild] = struct{}{}";
"				nstack = append(nstack, nodes[n.ZChild])";
"			}";
"		case query.ONE:";
"			if _, ok := nvisited[n.OChild]; !ok {";
"				nvisited[n.OChild] = struct{}{}";
"				nstack = append(nstack, nodes[n.OChild])";
"			}";
"		}";
"	}";
"";
"	return cnf.TrueCNF, nil";
"}"
].

Definition text_query_extensions_allcomp_var : string := lines [
"package allcomp";
"";
"import (";
"	""errors""";
"";
"	""github.com/jtcaraball/goexpdt/cnf""";
"	""github.com/jtcaraball/goexpdt/query""";
")";
"";
"// Var is the variable version of the Node predicate.";
"type Var struct {";
"	I query.QVar";
"	// LeafValue represents the leaf truth value. That is, if LeafValue = true";
"	// then the extension takes the meaning of AllPos and if LeafValue = false";
"	// the meaning of AllNeg.";
"	LeafValue bool";
"	// ReachNodeVarGen returns a variable generated from v that will be used to";
"	// encode what nodes in the model v is able (and not able) to reach.";
"	ReachNodeVarGen func(v query.QVar) query.QVar";
"}";
"";
"// Encoding returns a CNF that is true if and only if the query variable ac.I";
"// is such that all its completions are evaluated as ac.LeafValue by the model.";
"func (ac Var) Encoding(ctx query.QContext) (cnf.CNF, error) {";
"	if ctx == nil {";
"		return cnf.CNF{}, errors.New(""Invalid encoding with nil ctx"")";
"	}";
"	if ac.ReachNodeVarGen == nil {";
"		return cnf.CNF{}, errors.New(""Invalid nil var generation function"")";
"	}";
"";
"	nodes := ctx.Nodes()";
"	if len(nodes) == 0 {";
"		return cnf.CNF{}, errors.New(""Invalid encoding on empty model"")";
"	}";
"";
"	sv := ctx.ScopeVar(ac.I)";
"	svReach := ac.ReachNodeVarGen(sv)";
"	ncnf := cnf.CNF{}";
"";
"	// We will encode that sv reaches a node with index i as the triple";
"	// (svReach, 0, i).";
"";
"	ncnf = ncnf.AppendConsistency(cnf.Clause{ctx.CNFVar(svReach, 0, 0)})";
"";
"	for i, node := range nodes {";
"		if node.IsLeaf() {";
"			if node.Value != ac.LeafValue {";
"				ncnf = ncnf.AppendSemantics(";
"					cnf.Clause{-ctx.CNFVar(svReach, 0, i)},";
"				)";
"			}";
"			continue";
"		}";
"		ncnf = ncnf.AppendConsistency(";
"			cnf.Clause{";
"				-ctx.CNFVar(sv, node.Feat, int(query.ZERO)),";
"				-ctx.CNFVar(svReach, 0, i),";
"				ctx.CNFVar(svReach, 0, node.ZChild),";
"			},";
"			cnf.Clause{";
"				-ctx.CNFVar(sv, node.Feat, int(query.ONE)),";
"				-ctx.CNFVar(svReach, 0, i),";
"				ctx.CNFVar(svReach, 0, node.OChild),";
"			},";
"			cnf.Clause{";
"				-ctx.CNFVar(sv, node.Feat, int(query.BOT)),";
"				-ctx.CNFVar(svReach, 0, i),";
"				ctx.CNFVar(svReach, 0, node.ZChild),";
"			},";
"			cnf.Clause{";
"				-ctx.CNFVar(sv, node.Feat, int(query.BOT)),";
"				-ctx.CNFVar(svReach, 0, i),";
"				ctx.CNFVar(svReach, 0, node.OChild),";
"			},";
"			cnf.Clause{";
"				-ctx.CNFVar(svReach, 0, node.OChild),";
"				ctx.CNFVar(svReach, 0, i),";
"			},";
"			cnf.Clause{";
"				-ctx.CNFVar(svReach, 0, node.OChild),";
"				ctx.CNFVar(sv, node.Feat, int(query.ONE)),";
"				ctx.CNFVar(sv, node.Feat, int(query.BOT)),";
"			},";
"			cnf.Clause{";
"				-ctx.CNFVar(svReach, 0, node.ZChild),";
"				ctx.CNFVar(svReach, 0, i),";
"			},";
"			cnf.Clause{";
"				-ctx.CNFVar(svReach, 0, node.ZChild),";
"				ctx.CNFVar(sv, node.Feat, int(query.ZERO)),";
"				ctx.CNFVar(sv, node.Feat, int(query.BOT)),";
"			},";
"		)";
"	}";
"";
"	return ncnf, nil";
"}"
].

Definition text_query_extensions_cons_cons : string := lines [
"// Consistent formula in the DT-FOIL logic.";
"//";
"// Given a model M and partial instances e1 and e2 we say that M satisfies";
"// M(e1, e2) if and only if for every feature i it holds that if e1[i] !=";
"// bottom and e2[i] != bottom then e1[i] == e2[i].";
"package cons"
].

Definition text_query_extensions_cons_const_const : string := lines [
"package cons";
"";
"import (";
"	""errors""";
"";
"	""github.com/jtcaraball/goexpdt/cnf""";
"	""github.com/jtcaraball/goexpdt/query""";
")";
"";
"// ConstConst is the constant-constant version of the Consistent extension.";
"type ConstConst struct {";
"	I1 query.QConst";
"	I2 query.QConst";
"}";
"";
"// Encoding returns a CNF that is true if and only if the query constants c.I1";
"// and c.I2 have the same values in every feature where both are different than";
"// bottom.";
"func (c ConstConst) Encoding(ctx query.QContext) (cnf.CNF, error) {";
"	if ctx == nil {";
"		return cnf.CNF{}, errors.New(""Invalid encoding with nil ctx"")";
"	}";
"";
"	sc1, _ := ctx.ScopeConst(c.I1)";
"	sc2, _ := ctx.ScopeConst(c.I2)";
"";
"	if err := query.ValidateConstsDim(";
"		ctx.Dim(),";
"		sc1,";
"		sc2,";
"	); err != nil {";
"		return cnf.CNF{}, err";
"	}";
"";
"	for i := 0; i < ctx.Dim(); i++ {";
"		if sc1.Val[i] != query.BOT &&";
"			sc2.Val[i] != query.BOT &&";
"			sc1.Val[i] != sc2.Val[i] {";
"			return cnf.FalseCNF, nil";
"		}";
"	}";
"";
"	return cnf.TrueCNF, nil";
"}"
].

Definition text_query_extensions_cons_const_var : string := lines [
"package cons";
"";
"import (";
"	""errors""";
"";
"	""github.com/jtcaraball/goexpdt/cnf""";
"	""github.com/jtcaraball/goexpdt/query""";
")";
"";
"// ConstVar is the variable-variable version of the Consistent extension.";
"type ConstVar struct {";
"	I1 query.QConst";
"	I2 query.QVar";
"}";
"";
"// Encoding returns a CNF that is true if and only if the query constants c.I1";
"// and query variable c.I2 have the same values in every feature where both are";
"// different than bottom.";
"func (c ConstVar) Encoding(ctx query.QContext) (cnf.CNF, error) {";
"	if ctx == nil {";
"		return cnf.CNF{}, errors.New(""Invalid encoding with nil ctx"")";
"	}";
"";
"	sc, _ := ctx.ScopeConst(c.I1)";
"	sv := ctx.ScopeVar(c.I2)";
"";
"	if err := query.ValidateConstsDim(ctx.Dim(), sc); err != nil {";
"		return cnf.CNF{}, err";
"	}";
"";
"	clauses := []cnf.Clause{}";
"";
"	for i, ft := range sc.Val {";
"		if ft == query.BOT {";
"			continue";
"		}";
"";
"		val := int(query.ZERO)";
"		if ft == query.ZERO {";
"			val = int(query.ONE)";
"		}";
"";
"		clauses = append(clauses, cnf.Clause{-ctx.CNFVar(sv, i, val)})";
"	}";
"";
"	if len(clauses) == 0 {";
"		return cnf.TrueCNF, nil";
"	}";
"";
"	return cnf.FromClauses(clauses), nil";
"}"
].

Definition text_query_extensions_cons_var_const : string := lines [
"package cons";
"";
"import (";
"	""errors""";
"";
"	""github.com/jtcaraball/goexpdt/cnf""";
"	""github.com/jtcaraball/goexpdt/query""";
")";
"";
"// VarConst is the variable-constant version of the Consistent extension.";
"type VarConst struct {";
"	I1 query.QVar";
"	I2 query.QConst";
"}";
"";
"// Encoding returns a CNF that is true if and only if the query variable c.I1";
"// and query constant c.I2 have the same values in every feature where both are";
"// different than bottom.";
"func (c VarConst) Encoding(ctx query.QContext) (cnf.CNF, error) {";
"	if ctx == nil {";
"		return cnf.CNF{}, errors.New(""Invalid encoding with nil ctx"")";
"	}";
"";
"	sv := ctx.ScopeVar(c.I1)";
"	sc, _ := ctx.ScopeConst(c.I2)";
"";
"	if err := query.ValidateConstsDim(ctx.Dim(), sc); err != nil {";
"		return cnf.CNF{}, err";
"	}";
"";
"	clauses := []cnf.Clause{}";
"";
"	for i, ft := range sc.Val {";
"		if ft == query.BOT {";
"			continue";
"		}";
"";
"		val := int(query.ZERO)";
"		if ft == query.ZERO {";
"			val = int(query.ONE)";
"		}";
"";
"		clauses = append(clauses, cnf.Clause{-ctx.CNFVar(sv, i, val)})";
"	}";
"";
"	if len(clauses) == 0 {";
"		return cnf.TrueCNF, nil";
"	}";
"";
"	return cnf.FromClauses(clauses), nil";
"}"
].

Definition text_query_extensions_cons_var_var : string := lines [
"package cons";
"";
"import (";
"	""errors""";
"";
"	""github.com/jtcaraball/goexpdt/cnf""";
"	""github.com/jtcaraball/goexpdt/query""";
")";
"";
"// VarVar is the variable-variable version of the Consistent extension.";
"type VarVar struct {";
"	I1 query.QVar";
"	I2 query.QVar";
"}";
"";
"// Encoding returns a CNF that is true if and only if the query variables c.I1";
"// and c.I2 have the same values in every feature where both are different than";
"// bottom.";
"func (c VarVar) Encoding(ctx query.QContext) (cnf.CNF, error) {";
"	if ctx == nil {";
"		return cnf.CNF{}, errors.New(""Invalid encoding with nil ctx"")";
"	}";
"";
"	sv1 := ctx.ScopeVar(c.I1)";
"	sv2 := ctx.ScopeVar(c.I2)";
"";
"	clauses := []cnf.Clause{}";
"";
"	for i := 0; i < ctx.Dim(); i++ {";
"		clauses = append(";
"			clauses,";
"			cnf.Clause{";
"				-ctx.CNFVar(sv1, i, int(query.ONE)),";
"				-ctx.CNFVar(sv2, i, int(query.ZERO)),";
"			},";
"			cnf.Clause{";
"				-ctx.CNFVar(sv1, i, int(query.ZERO)),";
"				-ctx.CNFVar(sv2, i, int(query.ONE)),";
"			},";
"		)";
"	}";
"";
"	return cnf.FromClauses(clauses), nil";
"}"
].

Definition text_query_extensions_dfs_const : string := lines [
"package dfs";
"";
"import (";
"	""errors""";
"";
"	""github.com/jtcaraball/goexpdt/cnf""";
"	""github.com/jtcaraball/goexpdt/query""";
")";
"";
"// Const is the constant version of the DFS extension.";
"type Const struct {";
"	I query.QConst";
"}";
"";
"// Encoding returns a CNF that is true if and only if the query constant d.I";
"// is such that all its completions have the same Model evaluation.";
"func (d Const) Encoding(ctx query.QContext) (cnf.CNF, error) {";
"	if ctx == nil {";
"		return cnf.CNF{}, errors.New(""Invalid encoding with nil ctx"")";
"	}";
"";
"	sc, _ := ctx.ScopeConst(d.I)";
"	if err := query.ValidateConstsDim(ctx.Dim(), sc); err != nil {";
"		return cnf.CNF{}, err";
"	}";
"";
"	pleaf, nleaf, err := leafsAsConsts(ctx.Dim(), ctx.Nodes())";
"	if err != nil {";
"		return cnf.CNF{}, err";
"	}";
"";
"	if len(pleaf) == 0 && len(nleaf) == 0 {";
"		return cnf.CNF{}, errors.New(""Invalid encoding on empty model"")";
"	}";
"";
"	for _, p := range pleaf {";
"		for _, n := range nleaf {";
"			cons, err := leafCompare(sc, p, n)";
"			if err != nil {";
"				return cnf.CNF{}, err";
"			}";
"";
"			if !cons {";
"				return cnf.FalseCNF, nil";
"			}";
"		}";
"	}";
"";
"	return cnf.TrueCNF, nil";
"}";
"";
"func leafCompare(c, l1, l2 query.QConst) (bool, error) {";
"	if len(c.Val) != len(l1.Val) || len(c.Val) != len(l2.Val) {";
"		return false,";
"			errors.New(""Invalid comparison of constants of different dim"")";
"	}";
"";
"	for i, ft := range c.Val {";
"		if ft != query.BOT &&";
"			l1.Val[i] != query.BOT &&";
"			l2.Val[i] != query.BOT &&";
"			l1.Val[i] != l2.Val[i] {";
"			return true, nil";
"		}";
"	}";
"";
"	return false, nil";
"}"
].

Definition text_query_extensions_dfs_dfs : string := lines [
"// Determinant Feature Set formula in the DT-FOIL logic.";
"//";
"// Given a model T and partial instance e we say that T satisfies DFS(e) if and";
"// only if for every partial instance e', such that the set of features with";
"// value equal to bottom in e is the same to the set of features with value";
"// equal to bottom in e', it holds that all the completions of e' receive the";
"// same classification over T.";
"package dfs"
].

Definition text_query_extensions_dfs_utils : string := lines [
"package dfs";
"";
"import (";
"	""fmt""";
"";
"	""github.com/jtcaraball/goexpdt/query""";
")";
"";
"// leafsAsConsts returns, as query constants, the positive and negative leafs";
"// (in that order) of the model represented in nodes.";
"func leafsAsConsts(";
"	dim int,";
"	nodes []query.Node,";
") ([]query.QConst, []query.QConst, error) {";
"	for _, n := range nodes {";
"		if err := validateNode(n, dim, len(nodes)); err != nil {";
"			return nil, nil, err";
"		}";
"	}";
"";
"	pleaf := []query.QConst{}";
"	nleaf := []query.QConst{}";
"";
"	var tmp []query.FeatV";
"	cv := make([]query.FeatV, dim)";
"";
"	var cp, pp, zp, op int";
"	walk := make(";
"		[]struct {";
"			prev    int";
"			visited bool";
"		},";
"		len(nodes),";
"	)";
"";
"	for {";
"		if walk[cp].visited {";
"			// If its a leaf then we attempt to back up.";
"			if nodes[cp].IsLeaf() {";
"				goto backup";
"			}";
"";
"			zp = nodes[cp].ZChild";
"			if !walk[zp].visited {";
"				cv[nodes[cp].Feat] = query.ZERO";
"";
"				pp = cp";
"				cp = zp";
"				walk[cp].prev = pp";
"";
"				continue";
"			}";
"";
"			op = nodes[cp].OChild";
"			if !walk[op].visited {";
"				cv[nodes[cp].Feat] = query.ONE";
"";
"				pp = cp";
"				cp = op";
"				walk[cp].prev = pp";
"";
"				continue";
"			}";
"";
"		backup:";
"			if cp == 0 {";
"				break";
"			}";
"";
"			cp = walk[cp].prev";
"			cv[nodes[cp].Feat] = query.BOT";
"";
"			continue";
"		}";
"";
"		walk[cp].visited = true";
"";
"		if !nodes[cp].IsLeaf() {";
"			continue";
"		}";
"";
"		tmp = make([]query.FeatV, dim)";
"		copy(tmp, cv)";
"";
"		if nodes[cp].Value {";
"			pleaf = append(pleaf, query.QConst{Val: tmp})";
"		} else {";
"			nleaf = append(nleaf, query.QConst{Val: tmp})";
"		}";
"	}";
"";
"	return pleaf, nleaf, nil";
"}";
"";
"// validateNode returns a non nill error if the node n is invalid for the the";
"// given dimension and number of nodes.";
"func validateNode(n query.Node, dim, nlen int) error {";
"	if n.IsLeaf() {";
"		return nil";
"	}";
"";
"	if n.Feat < 0 || n.Feat >= dim {";
"		return fmt.Errorf(";
"			""Node's feature %d is out of range [0, %d]"",";
"			n.Feat,";
"			dim-1,";
"		)";
"	}";
"";
"	if n.ZChild < 0 || n.ZChild >= nlen {";
"		return fmt.Errorf(""Node's ZChild out of bounds %d"", n.ZChild)";
"	}";
"";
"	if n.OChild < 0 || n.OChild >= nlen {";
"		return fmt.Errorf(""Node's OChild out of bounds %d"", n.OChild)";
"	}";
"";
"	return nil";
"}"
].

Definition text_query_extensions_dfs_var : string := lines [
"package dfs";
"";
"import (";
"	""errors""";
"";
"	""github.com/jtcaraball/goexpdt/cnf""";
"	""github.com/jtcaraball/goexpdt/query""";
")";
"";
"// Var is the variable version of the DFS extension.";
"type Var struct {";
"	I query.QVar";
"}";
"";
"// Encoding returns a CNF that is true if and only if the query variable d.I";
"// is such that all its completions have the same Model evaluation.";
"func (d Var) Encoding(ctx query.QContext) (cnf.CNF, error) {";
"	if ctx == nil {";
"		return cnf.CNF{}, errors.New(""Invalid encoding with nil ctx"")";
"	}";
"";
"	sv := ctx.ScopeVar(d.I)";
"";
"	pleaf, nleaf, err := leafsAsConsts(ctx.Dim(), ctx.Nodes())";
"	if err != nil {";
"		return cnf.CNF{}, err";
"	}";
"";
"	if len(pleaf) == 0 && len(nleaf) == 0 {";
"		return cnf.CNF{}, errors.New(""Invalid encoding on empty model"")";
"	}";
"";
"	clauses := []cnf.Clause{}";
"";
"	for _, p := range pleaf {";
"		for _, n := range nleaf {";
"			cl, err := notAWitnessClause(sv, p, n, ctx)";
"			if err != nil {";
"				return cnf.CNF{}, err";
"			}";
"";
"			clauses = append(clauses, cl)";
"		}";
"	}";
"";
"	return cnf.FromClauses(clauses), nil";
"}";
"";
"func notAWitnessClause(";
"	v query.QVar,";
"	l1, l2 query.QConst,";
"	ctx query.QContext,";
") (cnf.Clause, error) {";
"	dim := ctx.Dim()";
"	clause := cnf.Clause{}";
"";
"	if dim != len(l1.Val) || dim != len(l2.Val) {";
"		return clause,";
"			errors.New(""Invalid comparison of constants of different dim"")";
"	}";
"";
"	for i := 0; i < ctx.Dim(); i++ {";
"		if l1.Val[i] != query.BOT &&";
"			l2.Val[i] != query.BOT &&";
"			l1.Val[i] != l2.Val[i] {";
"			clause = append(clause, -ctx.CNFVar(v, i, int(query.BOT)))";
"		}";
"	}";
"";
"	return clause, nil";
"}"
].

Definition text_query_extensions_full_const : string := lines [
"package full";
"";
"import (";
"	""errors""";
"";
"	""github.com/jtcaraball/goexpdt/cnf""";
"	""github.com/jtcaraball/goexpdt/query""";
")";
"";
"// Const is the constant version of the Full extension.";
"type Const struct {";
"	I query.QConst";
"}";
"";
"// Encoding returns a CNF that is true if and only if the query constant f.I";
"// has no features with bottom value.";
"func (f Const) Encoding(ctx query.QContext) (cnf.CNF, error) {";
"	if ctx == nil {";
"		return cnf.CNF{}, errors.New(""Invalid encoding with nil ctx"")";
"	}";
"";
"	sc, _ := ctx.ScopeConst(f.I)";
"	if err := query.ValidateConstsDim(ctx.Dim(), sc); err != nil {";
"		return cnf.CNF{}, err";
"	}";
"";
"	for _, ft := range sc.Val {";
"		if ft == query.BOT {";
"			return cnf.FalseCNF, nil";
"		}";
"	}";
"";
"	return cnf.TrueCNF, nil";
"}"
].

Definition text_query_extensions_full_full : string := lines [
"// Full formula in the DT-FOIL logic.";
"//";
"// Given a model M and a partial instance e we say that M satisfies Full(e) if";
"// and only if every feature of e has value different to bottom.";
"package full"
].

Definition text_query_extensions_full_var : string := lines [
"package full";
"";
"import (";
"	""errors""";
"";
"	""github.com/jtcaraball/goexpdt/cnf""";
"	""github.com/jtcaraball/goexpdt/query""";
")";
"";
"// Var is the variable version of the Full extension.";
"type Var struct {";
"	I query.QVar";
"}";
"";
"// Encoding returns a CNF that is true if and only if the query variable f.I";
"// has no features with bottom value.";
"func (f Var) Encoding(ctx query.QContext) (cnf.CNF, error) {";
"	if ctx == nil {";
"		return cnf.CNF{}, errors.New(""Invalid encoding with nil ctx"")";
"	}";
"";
"	sv := ctx.ScopeVar(f.I)";
"	clauses := []cnf.Clause{}";
"";
"	for i := 0; i < ctx.Dim(); i++ {";
"		clauses = append(";
"			clauses,";
"			cnf.Clause{-ctx.CNFVar(sv, i, int(query.BOT))},";
"		)";
"	}";
"";
"	return cnf.FromClauses(clauses), nil";
"}"
].

Definition text_query_extensions_hepr_const_const : string := lines [
"package hepr";
"";
"import (";
"	""errors""";
"";
"	""github.com/jtcaraball/goexpdt/cnf""";
"	""github.com/jtcaraball/goexpdt/query""";
")";
"";
"// ConstConst is the constant-constant version of the Higher or Equal";
"// Preference Rank extension.";
"type ConstConst struct {";
"	I1         query.QConst";
"	I2         query.QConst";
"	Preference []int";
"}";
"";
"// Encoding returns a CNF that is true if and only if the query constants d.I1";
"// has an equal or higher rank than d.I2 according to the feature preference";
"// d.Preference.";
"func (d ConstConst) Encoding(ctx query.QContext) (cnf.CNF, error) {";
"	if ctx == nil {";
"		return cnf.CNF{}, errors.New(""Invalid encoding with nil ctx"")";
"	}";
"";
"	if err := validatePref(d.Preference, ctx.Dim()); err != nil {";
"		return cnf.CNF{}, err";
"	}";
"";
"	sc1, _ := ctx.ScopeConst(d.I1)";
"	sc2, _ := ctx.ScopeConst(d.I2)";
"	if err := query.ValidateConstsDim(ctx.Dim(), sc1, sc2); err != nil {";
"		return cnf.CNF{}, err";
"	}";
"";
"	if len(d.Preference) == 0 {";
"		return cnf.TrueCNF, nil";
"	}";
"";
"	for _, idx := range d.Preference {";
"		if sc1.Val[idx] != query.BOT && sc2.Val[idx] == query.BOT {";
"			return cnf.TrueCNF, nil";
"		}";
"		if sc1.Val[idx] == query.BOT && sc2.Val[idx] != query.BOT {";
"			return cnf.FalseCNF, nil";
"		}";
"	}";
"";
"	return cnf.TrueCNF, nil";
"}"
].

Definition text_query_extensions_hepr_const_var : string := lines [
"package hepr";
"";
"import (";
"	""errors""";
"";
"	""github.com/jtcaraball/goexpdt/cnf""";
"	""github.com/jtcaraball/goexpdt/query""";
")";
"";
"// ConstVar is the constant-variable version of the Higher or Equal Preference";
"// Rank extension.";
"type ConstVar struct {";
"	I1         query.QConst";
"	I2         query.QVar";
"	Preference []int";
"	// FeaturePreferenceRankVarGen returns a variable used to encode the";
"	// comparative ranking between query variables v1 and v2 under the";
"	// preference encoded in p.";
"	FeaturePreferenceRankVarGen func(p, v1, v2 query.QVar) query.QVar";
"}";
"";
"// Encoding returns a CNF that is true if and only if the query constant d.I1";
"// has an equal or higher rank than the query variable d.I2 according to the";
"// feature preference d.Preference.";
"func (d ConstVar) Encoding(ctx query.QContext) (cnf.CNF, error) {";
"	if ctx == nil {";
"		return cnf.CNF{}, errors.New(""Invalid encoding with nil ctx"")";
"	}";
"";
"	if d.FeaturePreferenceRankVarGen == nil {";
"		return cnf.CNF{}, errors.New(""Invalid nil var generation function"")";
"	}";
"";
"	if err := validatePref(d.Preference, ctx.Dim()); err != nil {";
"		return cnf.CNF{}, err";
"	}";
"";
"	dim := ctx.Dim()";
"	sc, _ := ctx.ScopeConst(d.I1)";
"	sv := ctx.ScopeVar(d.I2)";
"	cvp := d.FeaturePreferenceRankVarGen(";
"		prefVar(d.Preference),";
"		query.QVar(sc.AsString()),";
"		sv,";
"	)";
"";
"	if err := query.ValidateConstsDim(dim, sc); err != nil {";
"		return cnf.CNF{}, err";
"	}";
"";
"	ncnf := cnf.CNF{}";
"	plen := len(d.Preference)";
"	idx := d.Preference[plen-1]";
"";
"	if sc.Val[idx] != query.BOT {";
"		ncnf = ncnf.AppendConsistency(cnf.Clause{ctx.CNFVar(cvp, 0, plen-1)})";
"	} else {";
"		ncnf = ncnf.AppendConsistency(";
"			cnf.Clause{";
"				-ctx.CNFVar(cvp, 0, plen-1),";
"				ctx.CNFVar(sv, idx, int(query.BOT)),";
"			},";
"			cnf.Clause{";
"				-ctx.CNFVar(sv, idx, int(query.BOT)),";
"				ctx.CNFVar(cvp, 0, plen-1),";
"			},";
"		)";
"	}";
"";
"	for i := plen - 2; i >= 0; i-- {";
"		idx = d.Preference[i]";
"";
"		if sc.Val[idx] != query.BOT {";
"			ncnf = ncnf.AppendConsistency(";
"				cnf.Clause{";
"					-ctx.CNFVar(cvp, 0, i),";
"					ctx.CNFVar(sv, idx, int(query.BOT)),";
"					ctx.CNFVar(cvp, 0, i+1),";
"				},";
"				cnf.Clause{";
"					-ctx.CNFVar(sv, idx, int(query.BOT)),";
"					ctx.CNFVar(cvp, 0, i),";
"				},";
"				cnf.Clause{";
"					-ctx.CNFVar(cvp, 0, i+1),";
"					ctx.CNFVar(cvp, 0, i),";
"				},";
"			)";
"			continue";
"		}";
"";
"		ncnf = ncnf.AppendConsistency(";
"			cnf.Clause{";
"				-ctx.CNFVar(sv, idx, int(query.BOT)),";
"				-ctx.CNFVar(cvp, 0, i+1),";
"				ctx.CNFVar(cvp, 0, i),";
"			},";
"			cnf.Clause{";
"				-ctx.CNFVar(cvp, 0, i),";
"				ctx.CNFVar(sv, idx, int(query.BOT)),";
"			},";
"			cnf.Clause{";
"				-ctx.CNFVar(cvp, 0, i),";
"				ctx.CNFVar(cvp, 0, i+1),";
"			},";
"		)";
"	}";
"";
"	return ncnf.AppendSemantics(cnf.Clause{ctx.CNFVar(cvp, 0, 0)}), nil";
"}"
].

Definition text_query_extensions_hepr_hepr : string := lines [
"// Higher or Equal Preference Rank formula in the DT-FOIL logic.";
"//";
"// Given a model M, partial instances e1 and e2 and a sequence of feature";
"// indexes f_1, f_2, ..., f_n we say that M satisfies HEPR(e1, e2) if and only";
"// if it holds that either all the features of the sequence in e1 and e2 are";
"// different to bottom or if the first index f_i in the sequence where either";
"// e1 or e2 have a value equal to bottom is such that e1[f_i] != bottom.";
"package hepr"
].

Definition text_query_extensions_hepr_util : string := lines [
"package hepr";
"";
"import (";
"	""fmt""";
"	""strconv""";
"	""strings""";
"";
"	""github.com/jtcaraball/goexpdt/query""";
")";
"";
"// validatePref returns a non nill error if pref contains feature indexes out";
"// of range of the given dimension dim or has any duplicates.";
"func validatePref(pref []int, dim int) error {";
"	seen := make([]bool, dim)";
"	for _, i := range pref {";
"		if i < 0 || i >= dim {";
"			return fmt.Errorf(""Preference feature index out of range '%d'"", i)";
"		}";
"		if seen[i] {";
"			return fmt.Errorf(""Invalid duplicate preference '%d'"", i)";
"		}";
"		seen[i] = true";
"	}";
"	return nil";
"}";
"";
"// prefVar returns a query variable corresponding to pref.";
"func prefVar(pref []int) query.QVar {";
"	var sb strings.Builder";
"";
"	for _, idx := range pref {";
"		sb.WriteString(strconv.Itoa(idx))";
"	}";
"";
"	return query.QVar(sb.String())";
"}"
].

Definition text_query_extensions_hepr_var_const : string := lines [
"package hepr";
"";
"import (";
"	""errors""";
"";
"	""github.com/jtcaraball/goexpdt/cnf""";
"	""github.com/jtcaraball/goexpdt/query""";
")";
"";
"// VarConst is the variable-constant version of the Higher or Equal Preference";
"// Rank extension.";
"type VarConst struct {";
"	I1         query.QVar";
"	I2         query.QConst";
"	Preference []int";
"	// FeaturePreferenceRankVarGen returns a variable used to encode the";
"	// comparative ranking between query variables v1 and v2 under the";
"	// preference encoded in p.";
"	FeaturePreferenceRankVarGen func(p, v1, v2 query.QVar) query.QVar";
"}";
"";
"// Encoding returns a CNF that is true if and only if the query variable d.I1";
"// has an equal or higher rank than the query constant d.I2 according to the";
"// feature preference d.Preference.";
"func (d VarConst) Encoding(ctx query.QContext) (cnf.CNF, error) {";
"	if ctx == nil {";
"		return cnf.CNF{}, errors.New(""Invalid encoding with nil ctx"")";
"	}";
"";
"	if d.FeaturePreferenceRankVarGen == nil {";
"		return cnf.CNF{}, errors.New(""Invalid nil var generation function"")";
"	}";
"";
"	if err := validatePref(d.Preference, ctx.Dim()); err != nil {";
"		return cnf.CNF{}, err";
"	}";
"";
"	dim := ctx.Dim()";
"	sv := ctx.ScopeVar(d.I1)";
"	sc, _ := ctx.ScopeConst(d.I2)";
"	vcp := d.FeaturePreferenceRankVarGen(";
"		prefVar(d.Preference),";
"		sv,";
"		query.QVar(sc.AsString()),";
"	)";
"";
"	if err := query.ValidateConstsDim(dim, sc); err != nil {";
"		return cnf.CNF{}, err";
"	}";
"";
"	ncnf := cnf.CNF{}";
"	plen := len(d.Preference)";
"	idx := d.Preference[plen-1]";
"";
"	if sc.Val[idx] != query.BOT {";
"		ncnf = ncnf.AppendConsistency(";
"			cnf.Clause{";
"				-ctx.CNFVar(vcp, 0, plen-1),";
"				-ctx.CNFVar(sv, idx, int(query.BOT)),";
"			},";
"			cnf.Clause{";
"				ctx.CNFVar(vcp, 0, plen-1),";
"				ctx.CNFVar(sv, idx, int(query.BOT)),";
"			},";
"		)";
"	} else {";
"		ncnf = ncnf.AppendConsistency(cnf.Clause{ctx.CNFVar(vcp, 0, plen-1)})";
"	}";
"";
"	for i := plen - 2; i >= 0; i-- {";
"		idx = d.Preference[i]";
"		if sc.Val[idx] != query.BOT {";
"			ncnf = ncnf.AppendConsistency(";
"				cnf.Clause{";
"					ctx.CNFVar(sv, idx, int(query.BOT)),";
"					-ctx.CNFVar(vcp, 0, i+1),";
"					ctx.CNFVar(vcp, 0, i),";
"				},";
"				cnf.Clause{";
"					-ctx.CNFVar(vcp, 0, i),";
"					-ctx.CNFVar(sv, idx, int(query.BOT)),";
"				},";
"				cnf.Clause{";
"					-ctx.CNFVar(vcp, 0, i),";
"					ctx.CNFVar(vcp, 0, i+1),";
"				},";
"			)";
"			continue";
"		}";
"";
"		ncnf = ncnf.AppendConsistency(";
"			cnf.Clause{";
"				-ctx.CNFVar(sv, idx, int(query.BOT)),";
"				ctx.CNFVar(vcp, 0, i+1),";
"				-ctx.CNFVar(vcp, 0, i),";
"			},";
"			cnf.Clause{";
"				ctx.CNFVar(vcp, 0, i),";
"				ctx.CNFVar(sv, idx, int(query.BOT)),";
"			},";
"			cnf.Clause{";
"				ctx.CNFVar(vcp, 0, i),";
"				-ctx.CNFVar(vcp, 0, i+1),";
"			},";
"		)";
"	}";
"";
"	return ncnf.AppendSemantics(cnf.Clause{ctx.CNFVar(vcp, 0, 0)}), nil";
"}"
].

Definition text_query_extensions_hepr_var_var : string := lines [
"package hepr";
"";
"import (";
"	""errors""";
"";
"	""github.com/jtcaraball/goexpdt/cnf""";
"	""github.com/jtcaraball/goexpdt/query""";
")";
"";
"// VarVar is the variable-variable version of the Higher or Equal Preference";
"// Rank extension.";
"type VarVar struct {";
"	I1         query.QVar";
"	I2         query.QVar";
"	Preference []int";
"	// FeaturePreferenceRankVarGen returns a variable used to encode the";
"	// comparative ranking between query variables v1 and v2 under the";
"	// preference encoded in p.";
"	FeaturePreferenceRankVarGen func(p, v1, v2 query.QVar) query.QVar";
"}";
"";
"// Encoding returns a CNF that is true if and only if the query variable d.I1";
"// has an equal or higher rank than d.I2 according to the feature preference";
"// d.Preference.";
"func (d VarVar) Encoding(ctx query.QContext) (cnf.CNF, error) {";
"	if ctx == nil {";
"		return cnf.CNF{}, errors.New(""Invalid encoding with nil ctx"")";
"	}";
"";
"	if d.FeaturePreferenceRankVarGen == nil {";
"		return cnf.CNF{}, errors.New(""Invalid nil var generation function"")";
"	}";
"";
"	if err := validatePref(d.Preference, ctx.Dim()); err != nil {";
"		return cnf.CNF{}, err";
"	}";
"";
"	sv1 := ctx.ScopeVar(d.I1)";
"	sv2 := ctx.ScopeVar(d.I2)";
"	vvp := d.FeaturePreferenceRankVarGen(prefVar(d.Preference), sv1, sv2)";
"";
"	ncnf := cnf.CNF{}";
"	plen := len(d.Preference)";
"	idx := d.Preference[plen-1]";
"";
"	ncnf = ncnf.AppendConsistency(";
"		cnf.Clause{";
"			-ctx.CNFVar(vvp, 0, plen-1),";
"			-ctx.CNFVar(sv1, idx, int(query.BOT)),";
"			ctx.CNFVar(sv2, idx, int(query.BOT)),";
"		},";
"		cnf.Clause{";
"			ctx.CNFVar(sv1, idx, int(query.BOT)),";
"			ctx.CNFVar(vvp, 0, plen-1),";
"		},";
"		cnf.Clause{";
"			-ctx.CNFVar(sv2, idx, int(query.BOT)),";
"			ctx.CNFVar(vvp, 0, plen-1),";
"		},";
"	)";
"";
"	for i := plen - 2; i >= 0; i-- {";
"		idx = d.Preference[i]";
"		ncnf = ncnf.AppendConsistency(";
"			// ->";
"			cnf.Clause{";
"				-ctx.CNFVar(sv1, idx, int(query.BOT)),";
"				ctx.CNFVar(sv2, idx, int(query.BOT)),";
"				-ctx.CNFVar(vvp, 0, i),";
"			},";
"			cnf.Clause{";
"				-ctx.CNFVar(sv1, idx, int(query.BOT)),";
"				-ctx.CNFVar(vvp, 0, i),";
"				ctx.CNFVar(vvp, 0, i+1),";
"			},";
"			cnf.Clause{";
"				ctx.CNFVar(sv2, idx, int(query.BOT)),";
"				-ctx.CNFVar(vvp, 0, i),";
"				ctx.CNFVar(vvp, 0, i+1),";
"			},";
"			// <-";
"			cnf.Clause{";
"				ctx.CNFVar(sv1, idx, int(query.BOT)),";
"				-ctx.CNFVar(sv2, idx, int(query.BOT)),";
"				ctx.CNFVar(vvp, 0, i),";
"			},";
"			cnf.Clause{";
"				ctx.CNFVar(sv1, idx, int(query.BOT)),";
"				ctx.CNFVar(vvp, 0, i),";
"				-ctx.CNFVar(vvp, 0, i+1),";
"			},";
"			cnf.Clause{";
"				-ctx.CNFVar(sv2, idx, int(query.BOT)),";
"				ctx.CNFVar(vvp, 0, i),";
"				-ctx.CNFVar(vvp, 0, i+1),";
"			},";
"		)";
"	}";
"";
"	return ncnf.AppendSemantics(cnf.Clause{ctx.CNFVar(vvp, 0, 0)}), nil";
"}"
].

Definition text_query_extensions_leh_const_const_const : string := lines [
"package leh";
"";
"import (";
"	""errors""";
"";
"	""github.com/jtcaraball/goexpdt/cnf""";
"	""github.com/jtcaraball/goexpdt/query""";
")";
"";
"// ConstConstConst is the constant-constant-constant version of the LEH";
"// extension.";
"type ConstConstConst struct {";
"	I1 query.QConst";
"	I2 query.QConst";
"	I3 query.QConst";
"}";
"";
"// Encoding returns a CNF that is true if and only if the query constants l.I1,";
"// l.I2 and l.I3 are full and the distance hamming distance between  l.I1 and";
"// l.I2 is smaller that the hamming distance between l.I1 and l.I3.";
"func (l ConstConstConst) Encoding(ctx query.QContext) (cnf.CNF, error) {";
"	if ctx == nil {";
"		return cnf.CNF{}, errors.New(""Invalid encoding with nil ctx"")";
"	}";
"";
"	sc1, _ := ctx.ScopeConst(l.I1)";
"	sc2, _ := ctx.ScopeConst(l.I2)";
"	sc3, _ := ctx.ScopeConst(l.I3)";
"";
"	if err := query.ValidateConstsDim(";
"		ctx.Dim(),";
"		sc1,";
"		sc2,";
"		sc3,";
"	); err != nil {";
"		return cnf.CNF{}, err";
"	}";
"";
"	if !sc1.IsFull() || !sc2.IsFull() || !sc3.IsFull() {";
"		return cnf.FalseCNF, nil";
"	}";
"";
"	hd12, err := hammingDistCC(sc1, sc2)";
"	if err != nil {";
"		return cnf.CNF{}, nil";
"	}";
"	hd13, err := hammingDistCC(sc1, sc3)";
"	if err != nil {";
"		return cnf.CNF{}, nil";
"	}";
"";
"	if hd12 > hd13 {";
"		return cnf.FalseCNF, nil";
"	}";
"";
"	return cnf.TrueCNF, nil";
"}"
].

Definition text_query_extensions_leh_const_const_var : string := lines [
"package leh";
"";
"import (";
"	""errors""";
"";
"	""github.com/jtcaraball/goexpdt/cnf""";
"	""github.com/jtcaraball/goexpdt/query""";
")";
"";
"// ConstConstVar is the constant-constant-variable version of the LEH";
"// extension.";
"type ConstConstVar struct {";
"	I1 query.QConst";
"	I2 query.QConst";
"	I3 query.QVar";
"	// HammingDistanceVarGen returns a variable generated from v1 and v2 that";
"	// will be used to encode the hamming distance between v1 and v2. The";
"	// resulting query variable should be the same regardless of the order in";
"	// which v1 and v2 are passed.";
"	HammingDistanceVarGen func(v1, v2 query.QVar) query.QVar";
"}";
"";
"// Encoding returns a CNF that is true if and only if the query constants l.I1";
"// and l.I2 and the query variable l.I3 are full and the distance hamming";
"// distance between  l.I1 and l.I2 is smaller that the hamming distance between";
"// l.I1 and l.I3.";
"func (l ConstConstVar) Encoding(ctx query.QContext) (cnf.CNF, error) {";
"	if ctx == nil {";
"		return cnf.CNF{}, errors.New(""Invalid encoding with nil ctx"")";
"	}";
"	if l.HammingDistanceVarGen == nil {";
"		return cnf.CNF{}, errors.New(""Invalid nil var generation function"")";
"	}";
"";
"	dim := ctx.Dim()";
"	sc1, _ := ctx.ScopeConst(l.I1)";
"	sc2, _ := ctx.ScopeConst(l.I2)";
"	sv := ctx.ScopeVar(l.I3)";
"	vc1hd := l.HammingDistanceVarGen(sv, query.QVar(sc1.AsString()))";
"";
"	if err := query.ValidateConstsDim(dim, sc1, sc2); err != nil {";
"		return cnf.CNF{}, err";
"	}";
"";
"	if !sc1.IsFull() || !sc2.IsFull() {";
"		return cnf.FalseCNF, nil";
"	}";
"";
"	cchd, err := hammingDistCC(sc1, sc2)";
"	if err != nil {";
"		return cnf.CNF{}, err";
"	}";
"";
"	if cchd == 0 {";
"		return cnf.TrueCNF, nil";
"	}";
"";
"	ncnf := cnf.FromClauses(varFullClauses(sv, ctx))";
"";
"	hdClauses, err := hammingDistVC(sv, sc1, vc1hd, ctx)";
"	if err != nil {";
"		return cnf.CNF{}, err";
"	}";
"";
"	ncnf = ncnf.AppendConsistency(hdClauses...)";
"";
"	for i := 0; i < cchd; i++ {";
"		ncnf = ncnf.AppendSemantics(";
"			cnf.Clause{-ctx.CNFVar(vc1hd, dim-1, i)},";
"		)";
"	}";
"";
"	return ncnf, nil";
"}"
].

Definition text_query_extensions_leh_const_var_const : string := lines [
"package leh";
"";
"import (";
"	""errors""";
"";
"	""github.com/jtcaraball/goexpdt/cnf""";
"	""github.com/jtcaraball/goexpdt/query""";
")";
"";
"// ConstVarConst is the constant-variable-constant version of the LEH";
"// extension.";
"type ConstVarConst struct {";
"	I1 query.QConst";
"	I2 query.QVar";
"	I3 query.QConst";
"	// HammingDistanceVarGen returns a variable generated from v1 and v2 that";
"	// will be used to encode the hamming distance between v1 and v2. The";
"	// resulting query variable should be the same regardless of the order in";
"	// which v1 and v2 are passed.";
"	HammingDistanceVarGen func(v1, v2 query.QVar) query.QVar";
"}";
"";
"// Encoding returns a CNF that is true if and only if the query constants l.I1";
"// and l.I3 and the query variable l.I2 are full and the distance hamming";
"// distance between  l.I1 and l.I2 is smaller that the hamming distance between";
"// l.I1 and l.I3.";
"func (l ConstVarConst) Encoding(ctx query.QContext) (cnf.CNF, error) {";
"	if ctx == nil {";
"		return cnf.CNF{}, errors.New(""Invalid encoding with nil ctx"")";
"	}";
"	if l.HammingDistanceVarGen == nil {";
"		return cnf.CNF{}, errors.New(""Invalid nil var generation function"")";
"	}";
"";
"	dim := ctx.Dim()";
"	sc1, _ := ctx.ScopeConst(l.I1)";
"	sc2, _ := ctx.ScopeConst(l.I3)";
"	sv := ctx.ScopeVar(l.I2)";
"	vc1hd := l.HammingDistanceVarGen(sv, query.QVar(sc2.AsString()))";
"";
"	if err := query.ValidateConstsDim(dim, sc1, sc2); err != nil {";
"		return cnf.CNF{}, err";
"	}";
"";
"	if !sc1.IsFull() || !sc2.IsFull() {";
"		return cnf.FalseCNF, nil";
"	}";
"";
"	cchd, err := hammingDistCC(sc1, sc2)";
"	if err != nil {";
"		return cnf.CNF{}, err";
"	}";
"";
"	if cchd == dim {";
"		return cnf.TrueCNF, nil";
"	}";
"";
"	ncnf := cnf.FromClauses(varFullClauses(sv, ctx))";
"";
"	hdClauses, err := hammingDistVC(sv, sc1, vc1hd, ctx)";
"	if err != nil {";
"		return cnf.CNF{}, err";
"	}";
"";
"	ncnf = ncnf.AppendConsistency(hdClauses...)";
"";
"	for i := cchd + 1; i <= dim; i++ {";
"		ncnf = ncnf.AppendSemantics(";
"			cnf.Clause{-ctx.CNFVar(vc1hd, dim-1, i)},";
"		)";
"	}";
"";
"	return ncnf, nil";
"}"
].

Definition text_query_extensions_leh_const_var_var : string := lines [
"package leh";
"";
"import (";
"	""errors""";
"";
"	""github.com/jtcaraball/goexpdt/cnf""";
"	""github.com/jtcaraball/goexpdt/query""";
")";
"";
"// ConstVarVar is the constant-variable-variable version of the LEH extension.";
"type ConstVarVar struct {";
"	I1 query.QConst";
"	I2 query.QVar";
"	I3 query.QVar";
"	// HammingDistanceVarGen returns a variable generated from v1 and v2 that";
"	// will be used to encode the hamming distance between v1 and v2. The";
"	// resulting query variable should be the same regardless of the order in";
"	// which v1 and v2 are passed.";
"	HammingDistanceVarGen func(v1, v2 query.QVar) query.QVar";
"}";
"";
"// Encoding returns a CNF that is true if and only if the query constant l.I1";
"// and query variables l.I2 and l.I3 are full and the distance hamming distance";
"// between l.I1 and l.I2 is smaller that the hamming distance between l.I1 and";
"// l.I3.";
"func (l ConstVarVar) Encoding(ctx query.QContext) (cnf.CNF, error) {";
"	if ctx == nil {";
"		return cnf.CNF{}, errors.New(""Invalid encoding with nil ctx"")";
"	}";
"	if l.HammingDistanceVarGen == nil {";
"		return cnf.CNF{}, errors.New(""Invalid nil var generation function"")";
"	}";
"";
"	dim := ctx.Dim()";
"	sc, _ := ctx.ScopeConst(l.I1)";
"	sv1 := ctx.ScopeVar(l.I2)";
"	sv2 := ctx.ScopeVar(l.I3)";
"	v1chd := l.HammingDistanceVarGen(sv1, query.QVar(sc.AsString()))";
"	v2chd := l.HammingDistanceVarGen(sv2, query.QVar(sc.AsString()))";
"";
"	if err := query.ValidateConstsDim(ctx.Dim(), sc); err != nil {";
"		return cnf.CNF{}, err";
"	}";
"";
"	if !sc.IsFull() {";
"		return cnf.FalseCNF, nil";
"	}";
"";
"	ncnf := cnf.CNF{}";
"";
"	ncnf = ncnf.AppendSemantics(varFullClauses(sv1, ctx)...)";
"	ncnf = ncnf.AppendSemantics(varFullClauses(sv2, ctx)...)";
"";
"	v1chdClauses, err := hammingDistVC(sv1, sc, v1chd, ctx)";
"	if err != nil {";
"		return cnf.CNF{}, err";
"	}";
"	v2chdClauses, err := hammingDistVC(sv2, sc, v2chd, ctx)";
"	if err != nil {";
"		return cnf.CNF{}, err";
"	}";
"";
"	ncnf = ncnf.AppendConsistency(v1chdClauses...)";
"	ncnf = ncnf.AppendConsistency(v2chdClauses...)";
"";
"	for i := 1; i <= dim; i++ {";
"		for j := 0; j < i; j++ {";
"			ncnf = ncnf.AppendSemantics(";
"				cnf.Clause{";
"					-ctx.CNFVar(v1chd, dim-1, i),";
"					-ctx.CNFVar(v2chd, dim-1, j),";
"				},";
"			)";
"		}";
"	}";
"";
"	return ncnf, nil";
"}"
].

Definition text_query_extensions_leh_leh : string := lines [
"// Less or Equal Hamming Distance formula in the DT-FOIL logic.";
"//";
"// Given a model M and partial instances e1, e2 and e3 we say the M satisfies";
"// LEH(e1, e2, e3) if and only if the hamming distance between e1 and e2 is";
"// less or equal to the hamming distance between e1 and e3.";
"package leh"
].

Definition text_query_extensions_leh_utils : string := lines [
"package leh";
"";
"import (";
"	""fmt""";
"";
"	""github.com/jtcaraball/goexpdt/cnf""";
"	""github.com/jtcaraball/goexpdt/query""";
")";
"";
"// hammingDistCC returns the hamming distance between to constant instances.";
"// Return error if constants have different dimensions.";
"func hammingDistCC(c1, c2 query.QConst) (int, error) {";
"	if len(c1.Val) != len(c2.Val) {";
"		return 0, fmt.Errorf(";
"			""Mismatched constant dimensions: %d - %d"",";
"			len(c1.Val),";
"			len(c2.Val),";
"		)";
"	}";
"";
"	hd := 0";
"";
"	for i, ft := range c1.Val {";
"		if ft != c2.Val[i] {";
"			hd += 1";
"		}";
"	}";
"";
"	return hd, nil";
"}";
"";
"// hammingDistVC returns the clauses encoding the hamming distance between the";
"// query variable v and the constant c. The query variable vcd is used to";
"// represent the value of this distance.";
"func hammingDistVC(";
"	v query.QVar,";
"	c query.QConst,";
"	vcd query.QVar,";
"	ctx query.QContext,";
") ([]cnf.Clause, error) {";
"	dim := ctx.Dim()";
"	clauses := []cnf.Clause{}";
"";
"	if err := query.ValidateConstsDim(ctx.Dim(), c); err != nil {";
"		return clauses, err";
"	}";
"";
"	clauses = append(";
"		clauses,";
"		cnf.Clause{-ctx.CNFVar(vcd, 0, 0), ctx.CNFVar(v, 0, int(c.Val[0]))},";
"		cnf.Clause{-ctx.CNFVar(v, 0, int(c.Val[0])), ctx.CNFVar(vcd, 0, 0)},";
"		cnf.Clause{-ctx.CNFVar(vcd, 0, 1), -ctx.CNFVar(v, 0, int(c.Val[0]))},";
"		cnf.Clause{ctx.CNFVar(v, 0, int(c.Val[0])), ctx.CNFVar(vcd, 0, 1)},";
"	)";
"";
"	for i := 1; i < dim; i++ {";
"		clauses = append(";
"			clauses,";
"			cnf.Clause{";
"				-ctx.CNFVar(vcd, i, 0),";
"				ctx.CNFVar(vcd, i-1, 0),";
"			},";
"			cnf.Clause{";
"				-ctx.CNFVar(vcd, i, 0),";
"				ctx.CNFVar(v, i, int(c.Val[i])),";
"			},";
"			cnf.Clause{";
"				-ctx.CNFVar(vcd, i-1, 0),";
"				-ctx.CNFVar(v, i, int(c.Val[i])),";
"				ctx.CNFVar(vcd, i, 0),";
"			},";
"		)";
"		for j := 1; j <= i+1; j++ {";
"			clauses = append(";
"				clauses,";
"				cnf.Clause{";
"					-ctx.CNFVar(vcd, i, j),";
"					ctx.CNFVar(vcd, i-1, j-1),";
"					ctx.CNFVar(v, i, int(c.Val[i])),";
"				},";
"				cnf.Clause{";
"					-ctx.CNFVar(vcd, i, j),";
"					ctx.CNFVar(vcd, i-1, j),";
"					-ctx.CNFVar(v, i, int(c.Val[i])),";
"				},";
"				cnf.Clause{";
"					ctx.CNFVar(vcd, i, j),";
"					-ctx.CNFVar(vcd, i-1, j-1),";
"					ctx.CNFVar(v, i, int(c.Val[i])),";
"				},";
"				cnf.Clause{";
"					ctx.CNFVar(vcd, i, j),";
"					-ctx.CNFVar(vcd, i-1, j),";
"					-ctx.CNFVar(v, i, int(c.Val[i])),";
"				},";
"			)";
"		}";
"	}";
"";
"	for i := 0; i < dim; i++ {";
"		for j := i + 2; j <= dim; j++ {";
"			clauses = append(clauses, cnf.Clause{-ctx.CNFVar(vcd, i, j)})";
"		}";
"	}";
"";
"	return clauses, nil";
"}";
"";
"// hammingDistVV returns the clauses encoding the hamming distance between the";
"// query variables v1 and v2. The query variable vd is used to represent the";
"// value of this distance and vfeq is used to encode v1 and v2 having features";
"// with equal value.";
"func hammingDistVV(vd, vfeq query.QVar, ctx query.QContext) []cnf.Clause {";
"	dim := ctx.Dim()";
"	clauses := []cnf.Clause{}";
"";
"	clauses = append(";
"		clauses,";
"		cnf.Clause{-ctx.CNFVar(vd, 0, 0), ctx.CNFVar(vfeq, 0, 0)},";
"		cnf.Clause{-ctx.CNFVar(vfeq, 0, 0), ctx.CNFVar(vd, 0, 0)},";
"		cnf.Clause{-ctx.CNFVar(vd, 0, 1), -ctx.CNFVar(vfeq, 0, 0)},";
"		cnf.Clause{ctx.CNFVar(vfeq, 0, 0), ctx.CNFVar(vd, 0, 1)},";
"	)";
"";
"	for i := 1; i < dim; i++ {";
"		clauses = append(";
"			clauses,";
"			cnf.Clause{";
"				-ctx.CNFVar(vd, i, 0),";
"				ctx.CNFVar(vd, i-1, 0),";
"			},";
"			cnf.Clause{";
"				-ctx.CNFVar(vd, i, 0),";
"				ctx.CNFVar(vfeq, i, 0),";
"			},";
"			cnf.Clause{";
"				-ctx.CNFVar(vd, i-1, 0),";
"				-ctx.CNFVar(vfeq, i, 0),";
"				ctx.CNFVar(vd, i, 0),";
"			},";
"		)";
"		for j := 1; j <= i+1; j++ {";
"			clauses = append(";
"				clauses,";
"				cnf.Clause{";
"					-ctx.CNFVar(vd, i, j),";
"					ctx.CNFVar(vd, i-1, j-1),";
"					ctx.CNFVar(vfeq, i, 0),";
"				},";
"				cnf.Clause{";
"					-ctx.CNFVar(vd, i, j),";
"					ctx.CNFVar(vd, i-1, j),";
"					-ctx.CNFVar(vfeq, i, 0),";
"				},";
"				cnf.Clause{";
"					ctx.CNFVar(vd, i, j),";
"					-ctx.CNFVar(vd, i-1, j-1),";
"					ctx.CNFVar(vfeq, i, 0),";
"				},";
"				cnf.Clause{";
"					ctx.CNFVar(vd, i, j),";
"					-ctx.CNFVar(vd, i-1, j),";
"					-ctx.CNFVar(vfeq, i, 0),";
"				},";
"			)";
"		}";
"	}";
"";
"	for i := 0; i < dim; i++ {";
"		for j := i + 2; j <= dim; j++ {";
"			clauses = append(clauses, cnf.Clause{-ctx.CNFVar(vd, i, j)})";
"		}";
"	}";
"";
"	return clauses";
"}";
"";
"// varFullClauses returns the clauses encoding that the query variable v has";
"// no features with bottom value.";
"func varFullClauses(v query.QVar, ctx query.QContext) []cnf.Clause {";
"	clauses := []cnf.Clause{}";
"";
"	for i := 0; i < ctx.Dim(); i++ {";
"		clauses = append(";
"			clauses,";
"			cnf.Clause{-ctx.CNFVar(v, i, int(query.BOT))},";
"		)";
"	}";
"";
"	return clauses";
"}";
"";
"// fullVarEqualClauses returns clauses encoding that the query variables v1 and";
"// v2 have the same value on every features. Assumes that both v1 and v2 are";
"// will be forced to be full. The variable vfeq is used to encode v1 and v2";
"// having features with equal value.";
"func fullVarEqualClauses(";
"	v1, v2, vfeq query.QVar,";
"	ctx query.QContext,";
") []cnf.Clause {";
"	clauses := []cnf.Clause{}";
"";
"	for i := 0; i < ctx.Dim(); i++ {";
"		clauses = append(";
"			clauses,";
"			cnf.Clause{";
"				-ctx.CNFVar(v1, i, int(query.ONE)),";
"				-ctx.CNFVar(v2, i, int(query.ONE)),";
"				ctx.CNFVar(vfeq, i, 0),";
"			},";
"			cnf.Clause{";
"				-ctx.CNFVar(v1, i, int(query.ONE)),";
"				-ctx.CNFVar(v2, i, int(query.ZERO)),";
"				-ctx.CNFVar(vfeq, i, 0),";
"			},";
"			cnf.Clause{";
"				-ctx.CNFVar(v1, i, int(query.ZERO)),";
"				-ctx.CNFVar(v2, i, int(query.ONE)),";
"				-ctx.CNFVar(vfeq, i, 0),";
"			},";
"			cnf.Clause{";
"				-ctx.CNFVar(v1, i, int(query.ZERO)),";
"				-ctx.CNFVar(v2, i, int(query.ZERO)),";
"				ctx.CNFVar(vfeq, i, 0),";
"			},";
"		)";
"	}";
"";
"	return clauses";
"}"
].

Definition text_query_extensions_leh_var_const_const : string := lines [
"package leh";
"";
"import (";
"	""errors""";
"";
"	""github.com/jtcaraball/goexpdt/cnf""";
"	""github.com/jtcaraball/goexpdt/query""";
")";
"";
"// VarConstConst is the variable-constant-constant version of the LEH";
"// extension.";
"type VarConstConst struct {";
"	I1 query.QVar";
"	I2 query.QConst";
"	I3 query.QConst";
"	// HammingDistanceVarGen returns a variable generated from v1 and v2 that";
"	// will be used to encode the hamming distance between v1 and v2. The";
"	// resulting query variable should be the same regardless of the order in";
"	// which v1 and v2 are passed.";
"	HammingDistanceVarGen func(v1, v2 query.QVar) query.QVar";
"}";
"";
"// Encoding returns a CNF that is true if and only if the query constants l.I2";
"// and l.I3 and the query variable l.I1 are full and the distance hamming";
"// distance between  l.I1 and l.I2 is smaller that the hamming distance between";
"// l.I1 and l.I3.";
"func (l VarConstConst) Encoding(ctx query.QContext) (cnf.CNF, error) {";
"	if ctx == nil {";
"		return cnf.CNF{}, errors.New(""Invalid encoding with nil ctx"")";
"	}";
"	if l.HammingDistanceVarGen == nil {";
"		return cnf.CNF{}, errors.New(""Invalid nil var generation function"")";
"	}";
"";
"	dim := ctx.Dim()";
"	sc1, _ := ctx.ScopeConst(l.I2)";
"	sc2, _ := ctx.ScopeConst(l.I3)";
"	sv := ctx.ScopeVar(l.I1)";
"	vc1hd := l.HammingDistanceVarGen(sv, query.QVar(sc1.AsString()))";
"	vc2hd := l.HammingDistanceVarGen(sv, query.QVar(sc2.AsString()))";
"";
"	if err := query.ValidateConstsDim(dim, sc1, sc2); err != nil {";
"		return cnf.CNF{}, err";
"	}";
"";
"	if !sc1.IsFull() || !sc2.IsFull() {";
"		return cnf.FalseCNF, nil";
"	}";
"";
"	ncnf := cnf.FromClauses(varFullClauses(sv, ctx))";
"";
"	hd1Clauses, err := hammingDistVC(sv, sc1, vc1hd, ctx)";
"	if err != nil {";
"		return cnf.CNF{}, err";
"	}";
"	hd2Clauses, err := hammingDistVC(sv, sc2, vc2hd, ctx)";
"	if err != nil {";
"		return cnf.CNF{}, err";
"	}";
"";
"	ncnf = ncnf.AppendConsistency(hd1Clauses...)";
"	ncnf = ncnf.AppendConsistency(hd2Clauses...)";
"";
"	for i := 1; i <= dim; i++ {";
"		for j := 0; j < i; j++ {";
"			ncnf = ncnf.AppendSemantics(";
"				cnf.Clause{";
"					-ctx.CNFVar(vc1hd, dim-1, i),";
"					-ctx.CNFVar(vc2hd, dim-1, j),";
"				},";
"			)";
"		}";
"	}";
"";
"	return ncnf, nil";
"}"
].

Definition text_query_extensions_leh_var_const_var : string := lines [
"package leh";
"";
"import (";
"	""errors""";
"";
"	""github.com/jtcaraball/goexpdt/cnf""";
"	""github.com/jtcaraball/goexpdt/query""";
")";
"";
"// VarConstVar is the variable-constant-variable version of the LEH extension.";
"type VarConstVar struct {";
"	I1 query.QVar";
"	I2 query.QConst";
"	I3 query.QVar";
"	// HammingDistanceVarGen returns a variable generated from v1 and v2 that";
"	// will be used to encode the hamming distance between v1 and v2. The";
"	// resulting query variable should be the same regardless of the order in";
"	// which v1 and v2 are passed.";
"	HammingDistanceVarGen func(v1, v2 query.QVar) query.QVar";
"	// EqualFeatureVarGen returns a variable generated from v1 and v2 that will";
"	// be used to encode equality between the features of v1 and v2. The";
"	// resulting query variable should be the same regardless of the order in";
"	// which v1 and v2 are passed.";
"	EqualFeatureVarGen func(v1, v2 query.QVar) query.QVar";
"}";
"";
"// Encoding returns a CNF that is true if and only if the query constant l.I2";
"// and query variables l.I1 and l.I3 are full and the distance hamming distance";
"// between l.I1 and l.I2 is smaller that the hamming distance between l.I1 and";
"// l.I3.";
"func (l VarConstVar) Encoding(ctx query.QContext) (cnf.CNF, error) {";
"	if ctx == nil {";
"		return cnf.CNF{}, errors.New(""Invalid encoding with nil ctx"")";
"	}";
"	if l.HammingDistanceVarGen == nil || l.EqualFeatureVarGen == nil {";
"		return cnf.CNF{}, errors.New(""Invalid nil var generation function"")";
"	}";
"";
"	dim := ctx.Dim()";
"	sc, _ := ctx.ScopeConst(l.I2)";
"	sv1 := ctx.ScopeVar(l.I1)";
"	sv2 := ctx.ScopeVar(l.I3)";
"	v1chd := l.HammingDistanceVarGen(sv1, query.QVar(sc.AsString()))";
"	vvhd := l.HammingDistanceVarGen(sv1, sv2)";
"	vvef := l.EqualFeatureVarGen(sv1, sv2)";
"";
"	if err := query.ValidateConstsDim(dim, sc); err != nil {";
"		return cnf.CNF{}, err";
"	}";
"";
"	if !sc.IsFull() {";
"		return cnf.FalseCNF, nil";
"	}";
"";
"	ncnf := cnf.CNF{}";
"";
"	ncnf = ncnf.AppendSemantics(varFullClauses(sv1, ctx)...)";
"	ncnf = ncnf.AppendSemantics(varFullClauses(sv2, ctx)...)";
"";
"	v1chdClauses, err := hammingDistVC(sv1, sc, v1chd, ctx)";
"	if err != nil {";
"		return cnf.CNF{}, err";
"	}";
"";
"	ncnf = ncnf.AppendConsistency(fullVarEqualClauses(sv1, sv2, vvef, ctx)...)";
"	ncnf = ncnf.AppendConsistency(hammingDistVV(vvhd, vvef, ctx)...)";
"	ncnf = ncnf.AppendConsistency(v1chdClauses...)";
"";
"	for i := 1; i <= dim; i++ {";
"		for j := 0; j < i; j++ {";
"			ncnf = ncnf.AppendSemantics(";
"				cnf.Clause{";
"					-ctx.CNFVar(v1chd, dim-1, i),";
"					-ctx.CNFVar(vvhd, dim-1, j),";
"				},";
"			)";
"		}";
"	}";
"";
"	return ncnf, nil";
"}"
].

Definition text_query_extensions_leh_var_var_const : string := lines [
"package leh";
"";
"import (";
"	""errors""";
"";
"	""github.com/jtcaraball/goexpdt/cnf""";
"	""github.com/jtcaraball/goexpdt/query""";
")";
"";
"// VarVarConst is the variable-variable-constant version of the LEH extension.";
"type VarVarConst struct {";
"	I1 query.QVar";
"	I2 query.QVar";
"	I3 query.QConst";
"	// HammingDistanceVarGen returns a variable generated from v1 and v2 that";
"	// will be used to encode the hamming distance between v1 and v2. The";
"	// resulting query variable should be the same regardless of the order in";
"	// which v1 and v2 are passed.";
"	HammingDistanceVarGen func(v1, v2 query.QVar) query.QVar";
"	// EqualFeatureVarGen returns a variable generated from v1 and v2 that will";
"	// be used to encode equality between the features of v1 and v2. The";
"	// resulting query variable should be the same regardless of the order in";
"	// which v1 and v2 are passed.";
"	EqualFeatureVarGen func(v1, v2 query.QVar) query.QVar";
"}";
"";
"// Return CNF encoding of component.";
"func (l VarVarConst) Encoding(ctx query.QContext) (cnf.CNF, error) {";
"	if ctx == nil {";
"		return cnf.CNF{}, errors.New(""Invalid encoding with nil ctx"")";
"	}";
"	if l.HammingDistanceVarGen == nil || l.EqualFeatureVarGen == nil {";
"		return cnf.CNF{}, errors.New(""Invalid nil var generation function"")";
"	}";
"";
"	dim := ctx.Dim()";
"	sv1 := ctx.ScopeVar(l.I1)";
"	sv2 := ctx.ScopeVar(l.I2)";
"	sc, _ := ctx.ScopeConst(l.I3)";
"	v1chd := l.HammingDistanceVarGen(sv1, query.QVar(sc.AsString()))";
"	vvhd := l.HammingDistanceVarGen(sv1, sv2)";
"	vvef := l.EqualFeatureVarGen(sv1, sv2)";
"";
"	if err := query.ValidateConstsDim(ctx.Dim(), sc); err != nil {";
"		return cnf.CNF{}, err";
"	}";
"";
"	if !sc.IsFull() {";
"		return cnf.FalseCNF, nil";
"	}";
"";
"	ncnf := cnf.CNF{}";
"";
"	ncnf = ncnf.AppendSemantics(varFullClauses(sv1, ctx)...)";
"	ncnf = ncnf.AppendSemantics(varFullClauses(sv2, ctx)...)";
"";
"	v1chdClauses, err := hammingDistVC(sv1, sc, v1chd, ctx)";
"	if err != nil {";
"		return cnf.CNF{}, err";
"	}";
"	ncnf = ncnf.AppendConsistency(fullVarEqualClauses(sv1, sv2, vvef, ctx)...)";
"	ncnf = ncnf.AppendConsistency(hammingDistVV(vvhd, vvef, ctx)...)";
"	ncnf = ncnf.AppendConsistency(v1chdClauses...)";
"";
"	for i := 1; i <= dim; i++ {";
"		for j := 0; j < i; j++ {";
"			ncnf = ncnf.AppendSemantics(";
"				cnf.Clause{";
"					-ctx.CNFVar(vvhd, dim-1, i),";
"					-ctx.CNFVar(v1chd, dim-1, j),";
"				},";
"			)";
"		}";
"	}";
"";
"	return ncnf, nil";
"}"
].

Definition text_query_extensions_leh_var_var_var : string := lines [
"package leh";
"";
"import (";
"	""errors""";
"";
"	""github.com/jtcaraball/goexpdt/cnf""";
"	""github.com/jtcaraball/goexpdt/query""";
")";
"";
"// VarVarVar is the variable-variable-variable version of the LEH extension.";
"type VarVarVar struct {";
"	I1 query.QVar";
"	I2 query.QVar";
"	I3 query.QVar";
"	// HammingDistanceVarGen returns a variable generated from v1 and v2 that";
"	// will be used to encode the hamming distance between v1 and v2. The";
"	// resulting query variable should be the same regardless of the order in";
"	// which v1 and v2 are passed.";
"	HammingDistanceVarGen func(v1, v2 query.QVar) query.QVar";
"	// EqualFeatureVarGen returns a variable generated from v1 and v2 that will";
"	// be used to encode equality between the features of v1 and v2. The";
"	// resulting query variable should be the same regardless of the order in";
"	// which v1 and v2 are passed.";
"	EqualFeatureVarGen func(v1, v2 query.QVar) query.QVar";
"}";
"";
"// Encoding returns a CNF that is true if and only if the query variables l.I1,";
"// l.I2 and l.I3 are full and the distance hamming distance between  l.I1 and";
"// l.I2 is smaller that the hamming distance between l.I1 and l.I3.";
"func (l VarVarVar) Encoding(ctx query.QContext) (cnf.CNF, error) {";
"	if ctx == nil {";
"		return cnf.CNF{}, errors.New(""Invalid encoding with nil ctx"")";
"	}";
"	if l.HammingDistanceVarGen == nil || l.EqualFeatureVarGen == nil {";
"		return cnf.CNF{}, errors.New(""Invalid nil var generation function"")";
"	}";
"";
"	dim := ctx.Dim()";
"	sv1 := ctx.ScopeVar(l.I1)";
"	sv2 := ctx.ScopeVar(l.I2)";
"	sv3 := ctx.ScopeVar(l.I3)";
"	v1v2dh := l.HammingDistanceVarGen(sv1, sv2)";
"	v1v3dh := l.HammingDistanceVarGen(sv1, sv3)";
"	v1v2ef := l.EqualFeatureVarGen(sv1, sv2)";
"	v1v3ef := l.EqualFeatureVarGen(sv1, sv3)";
"";
"	ncnf := cnf.CNF{}";
"";
"	ncnf = ncnf.AppendSemantics(varFullClauses(sv1, ctx)...)";
"	ncnf = ncnf.AppendSemantics(varFullClauses(sv2, ctx)...)";
"	ncnf = ncnf.AppendSemantics(varFullClauses(sv3, ctx)...)";
"";
"	ncnf = ncnf.AppendConsistency(fullVarEqualClauses(sv1, sv2, v1v2ef, ctx)...)";
"	ncnf = ncnf.AppendConsistency(fullVarEqualClauses(sv1, sv3, v1v3ef, ctx)...)";
"";
"	ncnf = ncnf.AppendConsistency(hammingDistVV(v1v2dh, v1v2ef, ctx)...)";
"	ncnf = ncnf.AppendConsistency(hammingDistVV(v1v3dh, v1v3ef, ctx)...)";
"";
"	for i := 1; i <= dim; i++ {";
"		for j := 0; j < i; j++ {";
"			ncnf = ncnf.AppendSemantics(";
"				cnf.Clause{";
"					-ctx.CNFVar(v1v2dh, dim-1, i),";
"					-ctx.CNFVar(v1v3dh, dim-1, j),";
"				},";
"			)";
"		}";
"	}";
"";
"	return ncnf, nil";
"}"
].

Definition text_query_logop_and : string := lines [
"package logop";
"";
"import (";
"	""errors""";
"	""fmt""";
"";
"	""github.com/jtcaraball/goexpdt/cnf""";
"	""github.com/jtcaraball/goexpdt/query""";
")";
"";
"// And represents the logical operator AND.";
"type And struct {";
"	// Q1 corresponds to a sub-query that implements the LogOpQ";
"	// interface.";
"	Q1 LogOpQ";
"	// Q2 corresponds to a sub-query that implements the LogOpQ";
"	// interface.";
"	Q2 LogOpQ";
"}";
"";
"// Encoding returns a CNF formula equivalent to the conjunction of the CNF";
"// formulas corresponding to its children.";
"func (a And) Encoding(ctx query.QContext) (ncnf cnf.CNF, err error) {";
"	defer func() {";
"		if err != nil {";
"			err = fmt.Errorf(""And: %w"", err)";
"		}";
"	}()";
"";
"	if a.Q1 == nil {";
"		return cnf.CNF{}, errors.New(""Invalid encoding of nil child (1)"")";
"	}";
"	if a.Q2 == nil {";
"		return cnf.CNF{}, errors.New(""Invalid encoding of nil child (2)"")";
"	}";
"	if ctx == nil {";
"		return cnf.CNF{}, errors.New(""Invalid encoding with nil ctx"")";
"	}";
"";
"	ncnf, err = a.buildEncoding(ctx)";
"";
"	return ncnf, err";
"}";
"";
"func (a And) buildEncoding(ctx query.QContext) (cnf.CNF, error) {";
"	cnf1, err := a.Q1.Encoding(ctx)";
"	if err != nil {";
"		return cnf.CNF{}, fmt.Errorf(""Q1: %w"", err)";
"	}";
"";
"	cnf2, err := a.Q2.Encoding(ctx)";
"	if err != nil {";
"		return cnf.CNF{}, fmt.Errorf(""Q2: %w"", err)";
"	}";
"";
"	return cnf1.Conjunction(cnf2), nil";
"}"
].

Definition text_query_logop_forallguarded : string := lines [
"package logop";
"";
"import (";
"	""errors""";
"	""fmt""";
"";
"	""github.com/jtcaraball/goexpdt/cnf""";
"	""github.com/jtcaraball/goexpdt/query""";
")";
"";
"// ForAllGuarded represents a FOR ALL guarded quantifier.";
"type ForAllGuarded struct {";
"	// I corresponds to the constant that will be used to materialize the";
"	// instances that correspond to the ctx's model's nodes. Its ID will be";
"	// used for scope setting.";
"	I query.QConst";
"	// Q corresponds to a sub-query that implements the LogOpQ interface and";
"	// that is expected to make use of I.";
"	Q LogOpQ";
"}";
"";
"// walkInfo holds information of a step in walk through a model. Used by";
"// nodeAsValuesIter.";
"type walkInfo struct {";
"	prev    int";
"	visited bool";
"}";
"";
"// nodeAsValuesIter allows to iterate over a model's nodes representing them";
"// as a slice of features stored in t.";
"type nodeAsValuesIter struct {";
"	t     *[]query.FeatV";
"	nodes []query.Node";
"	walk  []walkInfo";
"	cp    int";
"}";
"";
"// newNodeAsValuesIter initializes a nodeAsValuesIter and returns it alongside";
"// a pointer to the slice where it will write values to. Returns an error if";
"// nodes is an empty slice.";
"func newNodeAsValuesIter(";
"	dim int,";
"	nodes []query.Node,";
") (*[]query.FeatV, nodeAsValuesIter, error) {";
"	iter := nodeAsValuesIter{}";
"";
"	if len(nodes) == 0 {";
"		return nil, iter, errors.New(""Invalid iteration over empty model"")";
"	}";
"";
"	for _, n := range nodes {";
"		if err := validateNode(n, dim, len(nodes)); err != nil {";
"			return nil, iter, err";
"		}";
"	}";
"";
"	t := make([]query.FeatV, dim)";
"	iter.t = &t";
"	iter.nodes = nodes";
"	iter.walk = make([]walkInfo, len(nodes))";
"";
"	return &t, iter, nil";
"}";
"";
"// validateNode returns a non nill error if the node n is invalid for the the";
"// given dimension and number of nodes.";
"func validateNode(n query.Node, dim, nlen int) error {";
"	if n.IsLeaf() {";
"		return nil";
"	}";
"";
"	if n.Feat < 0 || n.Feat >= dim {";
"		return fmt.Errorf(";
"			""Node's feature %d is out of range [0, %d]"",";
"			n.Feat,";
"			dim-1,";
"		)";
"	}";
"";
"	if n.ZChild < 0 || n.ZChild >= nlen {";
"		return fmt.Errorf(""Node's ZChild out of bounds %d"", n.ZChild)";
"	}";
"";
"	if n.OChild < 0 || n.OChild >= nlen {";
"		return fmt.Errorf(""Node's OChild out of bounds %d"", n.OChild)";
"	}";
"";
"	return nil";
"}";
"";
"// Next attempts to moves the iterator to the next node, updating the value of";
"// t. Returns true if there is a next node and false otherwise.";
"func (i *nodeAsValuesIter) Next() bool {";
"	var pp, zp, op int";
"";
"	for {";
"		if i.walk[i.cp].visited {";
"			// If its a leaf then we attempt to back up.";
"			if i.nodes[i.cp].IsLeaf() {";
"				goto backup";
"			}";
"";
"			zp = i.nodes[i.cp].ZChild";
"			if !i.walk[zp].visited {";
"				(*i.t)[i.nodes[i.cp].Feat] = query.ZERO";
"";
"				pp = i.cp";
"				i.cp = zp";
"				i.walk[i.cp].prev = pp";
"";
"				continue";
"			}";
"";
"			op = i.nodes[i.cp].OChild";
"			if !i.walk[op].visited {";
"				(*i.t)[i.nodes[i.cp].Feat] = query.ONE";
"";
"				pp = i.cp";
"				i.cp = op";
"				i.walk[i.cp].prev = pp";
"";
"				continue";
"			}";
"";
"		backup:";
"			if i.cp == 0 {";
"				return false";
"			}";
"";
"			i.cp = i.walk[i.cp].prev";
"			(*i.t)[i.nodes[i.cp].Feat] = query.BOT";
"";
"			continue";
"		}";
"";
"		i.walk[i.cp].visited = true";
"";
"		return true";
"	}";
"}";
"";
"// Encoding returns the CNF formula equivalent to the conjunction all the";
"// possible CNF formulas of f.Q resulting from instantiating every value of f.I";
"// in the ctx's model.";
"func (f ForAllGuarded) Encoding(ctx query.QContext) (ncnf cnf.CNF, err error) {";
"	defer func() {";
"		if err != nil {";
"			err = fmt.Errorf(""ForAllGuarded: %w"", err)";
"		}";
"	}()";
"";
"	if f.Q == nil {";
"		return cnf.CNF{}, errors.New(""Invalid encoding of nil child"")";
"	}";
"	if ctx == nil {";
"		return cnf.CNF{}, errors.New(""Invalid encoding with nil ctx"")";
"	}";
"";
"	ncnf, err = f.buildEncoding(ctx)";
"";
"	return ncnf, err";
"}";
"";
"func (f ForAllGuarded) buildEncoding(";
"	ctx query.QContext,";
") (ncnf cnf.CNF, err error) {";
"	var cv *[]query.FeatV";
"	var iter nodeAsValuesIter";
"	var icnf cnf.CNF";
"";
"	ctx.AddScope(f.I.ID)";
"	defer func() {";
"		if perr := ctx.PopScope(); perr != nil {";
"			err = errors.Join(err, perr)";
"		}";
"	}()";
"";
"	i := 0";
"	cv, iter, err = newNodeAsValuesIter(ctx.Dim(), ctx.Nodes())";
"	if err != nil {";
"		return ncnf, err";
"	}";
"";
"	for iter.Next() {";
"		if err = ctx.SetScope(i, *cv); err != nil {";
"			return cnf.CNF{}, err";
"		}";
"";
"		icnf, err = f.Q.Encoding(ctx)";
"		if err != nil {";
"			return cnf.CNF{}, err";
"		}";
"";
"		ncnf = ncnf.Conjunction(icnf)";
"";
"		i += 1";
"	}";
"";
"	return ncnf, err";
"}"
].

Definition text_query_logop_logop : string := lines [
"// The logop package defines the logical operators (AND, NOT and OR) for the";
"// constructing queries.";
"//";
"// Additionally the WithVar and ForAllGuarded types are defined to handle";
"// variable declarations.";
"package logop";
"";
"import (";
"	""github.com/jtcaraball/goexpdt/cnf""";
"	""github.com/jtcaraball/goexpdt/query""";
")";
"";
"// A LogOpQ allows for the encoding of its meaning into a CNF formula.";
"type LogOpQ interface {";
"	// Encoding returns takes in a ctx representing the state of a query or";
"	// sub-query and returns its CNF encoding along side an error.";
"	Encoding(ctx query.QContext) (cnf.CNF, error)";
"}"
].

Definition text_query_logop_not : string := lines [
"package logop";
"";
"import (";
"	""errors""";
"	""fmt""";
"";
"	""github.com/jtcaraball/goexpdt/cnf""";
"	""github.com/jtcaraball/goexpdt/query""";
")";
"";
"// Not represents the logical operator NOT.";
"type Not struct {";
"	// Q corresponds to a sub-query that implements the LogOpQ";
"	// interface.";
"	Q LogOpQ";
"}";
"";
"// Encoding returns a CNF formula equivalent to the negations of its children's";
"// CNF formula.";
"func (n Not) Encoding(ctx query.QContext) (ncnf cnf.CNF, err error) {";
"	defer func() {";
"		if err != nil {";
"			err = fmt.Errorf(""Not: %w"", err)";
"		}";
"	}()";
"";
"	if n.Q == nil {";
"		return cnf.CNF{}, errors.New(""Invalid encoding of nil child"")";
"	}";
"	if ctx == nil {";
"		return cnf.CNF{}, errors.New(""Invalid encoding with nil ctx"")";
"	}";
"";
"	ncnf, err = n.buildEncoding(ctx)";
"";
"	return ncnf, err";
"}";
"";
"func (n Not) buildEncoding(ctx query.QContext) (cnf.CNF, error) {";
"	ncnf, err := n.Q.Encoding(ctx)";
"	if err != nil {";
"		return cnf.CNF{}, err";
"	}";
"";
"	ncnf = ncnf.Negate(ctx.TopV())";
"	ctx.UpdateTopV(ncnf.TopV())";
"";
"	return ncnf, nil";
"}"
].

Definition text_query_logop_or : string := lines [
"package logop";
"";
"import (";
"	""errors""";
"	""fmt""";
"";
"	""github.com/jtcaraball/goexpdt/cnf""";
"	""github.com/jtcaraball/goexpdt/query""";
")";
"";
"// Or represents the logical operator OR.";
"type Or struct {";
"	// Q1 corresponds to a sub-query that implements the LogOpQ";
"	// interface.";
"	Q1 LogOpQ";
"	// Q2 corresponds to a sub-query that implements the LogOpQ";
"	// interface.";
"	Q2 LogOpQ";
"}";
"";
"// Encoding returns a CNF formula equivalent to the disjunction of the CNF";
"// formulas corresponding to its children.";
"func (o Or) Encoding(ctx query.QContext) (ncnf cnf.CNF, err error) {";
"	defer func() {";
"		if err != nil {";
"			err = fmt.Errorf(""Or: %w"", err)";
"		}";
"	}()";
"";
"	if o.Q1 == nil {";
"		return cnf.CNF{}, errors.New(""Invalid encoding of nil child (1)"")";
"	}";
"	if o.Q2 == nil {";
"		return cnf.CNF{}, errors.New(""Invalid encoding of nil child (2)"")";
"	}";
"	if ctx == nil {";
"		return cnf.CNF{}, errors.New(""Invalid encoding with nil ctx"")";
"	}";
"";
"	ncnf, err = o.buildEncoding(ctx)";
"";
"	return ncnf, err";
"}";
"";
"func (o Or) buildEncoding(ctx query.QContext) (cnf.CNF, error) {";
"	// De Morgan's law";
"	// Encode both children";
"	cnf1, err := o.Q1.Encoding(ctx)";
"	if err != nil {";
"		return cnf.CNF{}, fmt.Errorf(""Q1: %w"", err)";
"	}";
"	cnf2, err := o.Q2.Encoding(ctx)";
"	if err != nil {";
"		return cnf.CNF{}, fmt.Errorf(""Q2: %w"", err)";
"	}";
"";
"	// Negate both children";
"	cnf1 = cnf1.Negate(ctx.TopV())";
"	tv := cnf1.TopV()";
"	ctx.UpdateTopV(tv) // TopV could have increases while negating";
"";
"	cnf2 = cnf2.Negate(ctx.TopV())";
"	tv = cnf2.TopV()";
"	ctx.UpdateTopV(tv) // TopV could have increases while negating";
"";
"	// Logical and & final negation";
"	ncnf := cnf1.Conjunction(cnf2).Negate(ctx.TopV())";
"	ctx.UpdateTopV(ncnf.TopV()) // TopV could have increases while negating";
"";
"	return ncnf, nil";
"}"
].

Definition text_query_logop_with_var : string := lines [
"package logop";
"";
"import (";
"	""errors""";
"	""fmt""";
"";
"	""github.com/jtcaraball/goexpdt/cnf""";
"	""github.com/jtcaraball/goexpdt/query""";
")";
"";
"// WithVar represents a sub-query that makes use of an instance variable.";
"type WithVar struct {";
"	// I corresponds to a partial instance variable.";
"	I query.QVar";
"	// Q corresponds to a sub-query that implements the LogOpQ interface and";
"	// that is expected to make use of I.";
"	Q LogOpQ";
"}";
"";
"// Encoding returns the CNF formula encoding the consistency clauses of its";
"// I variable and its Q CNF formula.";
"func (w WithVar) Encoding(ctx query.QContext) (ncnf cnf.CNF, err error) {";
"	defer func() {";
"		if err != nil {";
"			err = fmt.Errorf(""WithVar: %w"", err)";
"		}";
"	}()";
"";
"	if w.Q == nil {";
"		return cnf.CNF{}, errors.New(""Invalid encoding of nil child"")";
"	}";
"	if ctx == nil {";
"		return cnf.CNF{}, errors.New(""Invalid encoding with nil ctx"")";
"	}";
"";
"	ctx.AddVar(w.I)";
"";
"	ncnf, err = w.buildEncoding(ctx)";
"	if err != nil {";
"		return cnf.CNF{}, err";
"	}";
"	return ncnf, nil";
"}";
"";
"func (w WithVar) buildEncoding(";
"	ctx query.QContext,";
") (cnf.CNF, error) {";
"	icnf := w.encodeI(ctx)";
"";
"	ccnf, err := w.Q.Encoding(ctx)";
"	if err != nil {";
"		return cnf.CNF{}, err";
"	}";
"";
"	return icnf.Conjunction(ccnf), nil";
"}";
"";
"// encodeI returns a CNF with consistency clauses enforcing a consistent";
"// valuation of w.I.";
"func (w WithVar) encodeI(ctx query.QContext) cnf.CNF {";
"	ncnf := cnf.CNF{}";
"";
"	v := ctx.ScopeVar(w.I)";
"";
"	// Lets not add consistency clauses twice.";
"	if ctx.CNFVarExists(v, 0, int(query.BOT)) {";
"		return ncnf";
"	}";
"";
"	// Every feature must have at least one value";
"	reqAllFeats := []cnf.Clause{}";
"	for i := 0; i < ctx.Dim(); i++ {";
"		reqAllFeats = append(";
"			reqAllFeats,";
"			cnf.Clause{";
"				ctx.CNFVar(v, i, int(query.ZERO)),";
"				ctx.CNFVar(v, i, int(query.ONE)),";
"				ctx.CNFVar(v, i, int(query.BOT)),";
"			},";
"		)";
"	}";
"";
"	ncnf = ncnf.AppendConsistency(reqAllFeats...)";
"	// Every feature must have one and only one value";
"	for i := 0; i < ctx.Dim(); i++ {";
"		reqOnePerFeat := []cnf.Clause{";
"			{";
"				-ctx.CNFVar(v, i, int(query.ZERO)),";
"				-ctx.CNFVar(v, i, int(query.ONE)),";
"			},";
"			{";
"				-ctx.CNFVar(v, i, int(query.ZERO)),";
"				-ctx.CNFVar(v, i, int(query.BOT)),";
"			},";
"			{";
"				-ctx.CNFVar(v, i, int(query.ONE)),";
"				-ctx.CNFVar(v, i, int(query.BOT)),";
"			},";
"		}";
"		ncnf = ncnf.AppendConsistency(reqOnePerFeat...)";
"	}";
"";
"	return ncnf";
"}"
].

Definition text_query_predicates_isnode_const : string := lines [
"package isnode";
"";
"import (";
"	""errors""";
"	""fmt""";
"";
"	""github.com/jtcaraball/goexpdt/cnf""";
"	""github.com/jtcaraball/goexpdt/query""";
")";
"";
"// Const is the constant version of the Node predicate.";
"type Const struct {";
"	I query.QConst";
"}";
"";
"// Encoding returns a CNF that is true if and only if the query constant n.I";
"// corresponds to a node in the model.";
"func (n Const) Encoding(ctx query.QContext) (cnf.CNF, error) {";
"	if ctx == nil {";
"		return cnf.CNF{}, errors.New(""Invalid encoding with nil ctx"")";
"	}";
"";
"	sc, _ := ctx.ScopeConst(n.I)";
"	if err := query.ValidateConstsDim(ctx.Dim(), sc); err != nil {";
"		return cnf.CNF{}, err";
"	}";
"";
"	dim := ctx.Dim()";
"	visited := newVisitRecord(dim, sc)";
"";
"	nodes := ctx.Nodes()";
"	if len(nodes) == 0 {";
"		return cnf.CNF{}, errors.New(""Invalid encoding on empty model"")";
"	}";
"";
"	// Lets walk down the model from the root and see if all the decisions made";
"	// are over non BOT features.";
"	node := nodes[0]";
"	for {";
"		// If we reach a leaf then we decided on every possible feature.";
"		if node.IsLeaf() {";
"			break";
"		}";
"";
"		if node.Feat < 0 || node.Feat >= dim {";
"			return cnf.CNF{}, fmt.Errorf(";
"				""Node's feature %d is out of range [0, %d]"",";
"				node.Feat,";
"				dim-1,";
"			)";
"		}";
"";
"		// A constant with a BOT value on a decided feature can not be a node.";
"		if sc.Val[node.Feat] == query.BOT {";
"			break";
"		}";
"";
"		// Mark the feature we are deciding on as visited and set next";
"		// iteration node as the current's corresponding children.";
"		visited[node.Feat] = 1";
"";
"		if sc.Val[node.Feat] == query.ZERO {";
"			if node.ZChild < 0 || node.ZChild >= len(nodes) {";
"				return cnf.CNF{}, fmt.Errorf(";
"					""Node's ZChild out of bounds %d"",";
"					node.ZChild,";
"				)";
"			}";
"			node = nodes[node.ZChild]";
"			continue";
"		}";
"";
"		if node.OChild < 0 || node.OChild >= len(nodes) {";
"			return cnf.CNF{}, fmt.Errorf(";
"				""Node's OChild out of bounds %d"",";
"				node.OChild,";
"			)";
"		}";
"		node = nodes[node.OChild]";
"	}";
"";
"	// If all features where visited then the constant must represent a node.";
"	if allFeatsVisited(visited) {";
"		return cnf.TrueCNF, nil";
"	}";
"";
"	return cnf.FalseCNF, nil";
"}";
"";
"// newVisitRecord returns an int slice denoting with a 1 which features the";
"// query constant c has ""visited"" and with a 0 those is has not. Initially only";
"// the features with value equal to bottom are marked as visited.";
"func newVisitRecord(dim int, c query.QConst) []int {";
"	vr := make([]int, dim)";
"";
"	for i, ft := range c.Val {";
"		if ft == query.BOT {";
"			vr[i] = 1";
"			continue";
"		}";
"		vr[i] = 0";
"	}";
"";
"	return vr";
"}";
"";
"// allVisited returns true if every feature is marked as ""visited"".";
"func allFeatsVisited(vr []int) bool {";
"	sum := 0";
"";
"	for _, val := range vr {";
"		sum += val";
"	}";
"";
"	return sum == len(vr)";
"}"
].

Definition text_query_predicates_isnode_isnode : string := lines [
"// Node predicate in the DT-FOIL logic.";
"//";
"// Given a decision tree T and a partial instance e we say that T satisfies";
"// Node(e) if and only if there exists a node u in T such that e = e_u.";
"// That is, Node(e) is true if and only if there is a node u in T such that";
"// for every feature that T decides on to reach u, e has the same value as";
"// the path chosen and for every feature not decided on e has a bottom value.";
"package isnode"
].

Definition text_query_predicates_isnode_var : string := lines [
"package isnode";
"";
"import (";
"	""errors""";
"";
"	""github.com/jtcaraball/goexpdt/cnf""";
"	""github.com/jtcaraball/goexpdt/query""";
")";
"";
"// Var is the variable version of the Node predicate.";
"type Var struct {";
"	I query.QVar";
"	// ReachNodeVarGen returns a variable generated from v that will be used to";
"	// encode what nodes in the model v is able (and not able) to reach.";
"	ReachNodeVarGen func(v query.QVar) query.QVar";
"}";
"";
"// Encoding returns a CNF that is true if and only if the query variable n.I";
"// corresponds to a node in the model.";
"func (f Var) Encoding(ctx query.QContext) (cnf.CNF, error) {";
"	if ctx == nil {";
"		return cnf.CNF{}, errors.New(""Invalid encoding with nil ctx"")";
"	}";
"	if f.ReachNodeVarGen == nil {";
"		return cnf.CNF{}, errors.New(""Invalid nil var generation function"")";
"	}";
"";
"	nodes := ctx.Nodes()";
"	if len(nodes) == 0 {";
"		return cnf.CNF{}, errors.New(""Invalid encoding on empty model"")";
"	}";
"";
"	dim := ctx.Dim()";
"	ncnf := cnf.CNF{}";
"	sv := ctx.ScopeVar(f.I)";
"	svReach := f.ReachNodeVarGen(sv)";
"";
"	// We will encode that sv reaches a node with index i as the triple";
"	// (svReach, 0, i).";
"";
"	// Every feature that is not BOT must be decided on";
"	fcl := []cnf.Clause{}";
"";
"	for i := 0; i < dim; i++ {";
"		fcl = append(fcl, cnf.Clause{ctx.CNFVar(sv, i, int(query.BOT))})";
"	}";
"	for i, node := range nodes {";
"		if node.IsLeaf() {";
"			continue";
"		}";
"";
"		fcl[node.Feat] = append(fcl[node.Feat], ctx.CNFVar(svReach, 0, i))";
"	}";
"";
"	ncnf = ncnf.AppendSemantics(fcl...)";
"";
"	// Root is always reachable";
"	ncnf = ncnf.AppendConsistency(cnf.Clause{ctx.CNFVar(svReach, 0, 0)})";
"";
"	// Add non-bot progapation clauses";
"	for i, node := range nodes {";
"		if node.IsLeaf() {";
"			continue";
"		}";
"		ncnf = ncnf.AppendConsistency(";
"			cnf.Clause{";
"				-ctx.CNFVar(sv, node.Feat, int(query.ZERO)),";
"				-ctx.CNFVar(svReach, 0, i),";
"				ctx.CNFVar(svReach, 0, node.ZChild),";
"			},";
"			cnf.Clause{";
"				-ctx.CNFVar(sv, node.Feat, int(query.ONE)),";
"				-ctx.CNFVar(svReach, 0, i),";
"				ctx.CNFVar(svReach, 0, node.OChild),";
"			},";
"			cnf.Clause{";
"				-ctx.CNFVar(svReach, 0, node.OChild),";
"				ctx.CNFVar(svReach, 0, i),";
"			},";
"			cnf.Clause{";
"				-ctx.CNFVar(svReach, 0, node.OChild),";
"				ctx.CNFVar(sv, node.Feat, int(query.ONE)),";
"			},";
"			cnf.Clause{";
"				-ctx.CNFVar(svReach, 0, node.ZChild),";
"				ctx.CNFVar(svReach, 0, i),";
"			},";
"			cnf.Clause{";
"				-ctx.CNFVar(svReach, 0, node.ZChild),";
"				ctx.CNFVar(sv, node.Feat, int(query.ZERO)),";
"			},";
"		)";
"	}";
"";
"	return ncnf, nil";
"}"
].

Definition text_query_predicates_lel_const_const : string := lines [
"package lel";
"";
"import (";
"	""errors""";
"";
"	""github.com/jtcaraball/goexpdt/cnf""";
"	""github.com/jtcaraball/goexpdt/query""";
")";
"";
"// ConstConst is the constant-constant version of the Less or Equal Level";
"// predicate.";
"type ConstConst struct {";
"	I1 query.QConst";
"	I2 query.QConst";
"}";
"";
"// Ecoding returns a CNF that is true if and only if the query constant l.I1";
"// has more or equal amount of BOT valued features than the query constant";
"// l.I2.";
"func (l ConstConst) Encoding(ctx query.QContext) (cnf.CNF, error) {";
"	if ctx == nil {";
"		return cnf.CNF{}, errors.New(""Invalid encoding with nil ctx"")";
"	}";
"";
"	sc1, _ := ctx.ScopeConst(l.I1)";
"	sc2, _ := ctx.ScopeConst(l.I2)";
"";
"	if err := query.ValidateConstsDim(ctx.Dim(), sc1, sc2); err != nil {";
"		return cnf.CNF{}, err";
"	}";
"";
"	if sc1.BotCount() < sc2.BotCount() {";
"		return cnf.FalseCNF, nil";
"	}";
"";
"	return cnf.TrueCNF, nil";
"}"
].

Definition text_query_predicates_lel_const_var : string := lines [
"package lel";
"";
"import (";
"	""errors""";
"";
"	""github.com/jtcaraball/goexpdt/cnf""";
"	""github.com/jtcaraball/goexpdt/query""";
")";
"";
"// ConstVar is the constant-variable version of the Less or Equal Level";
"// predicate.";
"type ConstVar struct {";
"	I1 query.QConst";
"	I2 query.QVar";
"	// CountVarGen returns a variable generated from v that will be used to";
"	// encode the amount of features equal to bot in v.";
"	CountVarGen func(v query.QVar) query.QVar";
"}";
"";
"// Ecoding returns a CNF that is true if and only if the query constant l.I1";
"// has more or equal amount of BOT valued features than the query variable";
"// l.I2.";
"func (l ConstVar) Encoding(ctx query.QContext) (cnf.CNF, error) {";
"	if ctx == nil {";
"		return cnf.CNF{}, errors.New(""Invalid encoding with nil ctx"")";
"	}";
"	if l.CountVarGen == nil {";
"		return cnf.CNF{}, errors.New(""Invalid nil var generation function"")";
"	}";
"";
"	sv := ctx.ScopeVar(l.I2)";
"	sc, _ := ctx.ScopeConst(l.I1)";
"	svCount := l.CountVarGen(sv)";
"";
"	if err := query.ValidateConstsDim(ctx.Dim(), sc); err != nil {";
"		return cnf.CNF{}, err";
"	}";
"";
"	ncnf := cnf.CNF{}";
"	ncnf = ncnf.AppendConsistency(varBotCountClauses(sv, svCount, ctx)...)";
"";
"	for i := sc.BotCount() + 1; i < ctx.Dim()+1; i++ {";
"		ncnf = ncnf.AppendSemantics(";
"			cnf.Clause{-ctx.CNFVar(svCount, ctx.Dim()-1, i)},";
"		)";
"	}";
"";
"	return ncnf, nil";
"}"
].

Definition text_query_predicates_lel_lel : string := lines [
"// Less or Equal Level predicate in the DT-FOIL logic.";
"//";
"// Given a model M and partial instances e1 and e2 we say that M satisfies";
"// LEL(e1, e2) if and only if the number of bottom valued features in e1 is";
"// greater or equal to the number of bottom valued features in e2.";
"package lel"
].

Definition text_query_predicates_lel_utils : string := lines [
"package lel";
"";
"import (";
"	""github.com/jtcaraball/goexpdt/cnf""";
"	""github.com/jtcaraball/goexpdt/query""";
")";
"";
"// varBotCountClauses generates the counting clauses used to encode the number";
"// of features with value equal to bot in v. To do this an auxiliary Var cv is";
"// used.";
"func varBotCountClauses(";
"	v query.QVar,";
"	cv query.QVar,";
"	ctx query.QContext,";
") []cnf.Clause {";
"	var i, j int";
"";
"	dim := ctx.Dim()";
"	clauses := []cnf.Clause{}";
"";
"	for i = 1; i < dim; i++ {";
"		clauses = append(";
"			clauses,";
"			cnf.Clause{";
"				-ctx.CNFVar(cv, i, 0),";
"				-ctx.CNFVar(v, i, int(query.BOT)),";
"			},";
"			cnf.Clause{";
"				-ctx.CNFVar(cv, i, 0),";
"				ctx.CNFVar(cv, i-1, 0),";
"			},";
"			cnf.Clause{";
"				-ctx.CNFVar(cv, i-1, 0),";
"				ctx.CNFVar(v, i, int(query.BOT)),";
"				ctx.CNFVar(cv, i, 0),";
"			},";
"		)";
"";
"		for j = 1; j < i+2; j++ {";
"			clauses = append(";
"				clauses,";
"				cnf.Clause{";
"					-ctx.CNFVar(cv, i, j),";
"					ctx.CNFVar(cv, i-1, j-1),";
"					-ctx.CNFVar(v, i, int(query.BOT)),";
"				},";
"				cnf.Clause{";
"					ctx.CNFVar(cv, i, j),";
"					-ctx.CNFVar(cv, i-1, j-1),";
"					-ctx.CNFVar(v, i, int(query.BOT)),";
"				},";
"				cnf.Clause{";
"					-ctx.CNFVar(cv, i, j),";
"					ctx.CNFVar(cv, i-1, j),";
"					ctx.CNFVar(v, i, int(query.BOT)),";
"				},";
"				cnf.Clause{";
"					ctx.CNFVar(cv, i, j),";
"					-ctx.CNFVar(cv, i-1, j),";
"					ctx.CNFVar(v, i, int(query.BOT)),";
"				},";
"			)";
"		}";
"	}";
"";
"	for i = 0; i < dim; i++ {";
"		for j = i + 2; j <= dim; j++ {";
"			clauses = append(clauses, cnf.Clause{-ctx.CNFVar(cv, i, j)})";
"		}";
"	}";
"";
"	clauses = append(";
"		clauses,";
"		cnf.Clause{";
"			-ctx.CNFVar(cv, 0, 1),";
"			ctx.CNFVar(v, 0, int(query.BOT)),";
"		},";
"		cnf.Clause{";
"			-ctx.CNFVar(v, 0, int(query.BOT)),";
"			ctx.CNFVar(cv, 0, 1),";
"		},";
"		cnf.Clause{";
"			-ctx.CNFVar(cv, 0, 0),";
"			-ctx.CNFVar(v, 0, int(query.BOT)),";
"		},";
"		cnf.Clause{";
"			ctx.CNFVar(v, 0, int(query.BOT)),";
"			ctx.CNFVar(cv, 0, 0),";
"		},";
"	)";
"";
"	return clauses";
"}"
].

Definition text_query_predicates_lel_var_const : string := lines [
"package lel";
"";
"import (";
"	""errors""";
"";
"	""github.com/jtcaraball/goexpdt/cnf""";
"	""github.com/jtcaraball/goexpdt/query""";
")";
"";
"// VarConst is the variable-constant version of the Less or Equal Level";
"// predicate.";
"type VarConst struct {";
"	I1 query.QVar";
"	I2 query.QConst";
"	// CountVarGen returns a variable generated from v that will be used to";
"	// encode the amount of features equal to bot in v.";
"	CountVarGen func(v query.QVar) query.QVar";
"}";
"";
"// Ecoding returns a CNF that is true if and only if the query variable l.I1";
"// has more or equal amount of BOT valued features than the query constant";
"// l.I2.";
"func (l VarConst) Encoding(ctx query.QContext) (cnf.CNF, error) {";
"	if ctx == nil {";
"		return cnf.CNF{}, errors.New(""Invalid encoding with nil ctx"")";
"	}";
"	if l.CountVarGen == nil {";
"		return cnf.CNF{}, errors.New(""Invalid nil var generation function"")";
"	}";
"";
"	sv := ctx.ScopeVar(l.I1)";
"	sc, _ := ctx.ScopeConst(l.I2)";
"	svCount := l.CountVarGen(sv)";
"";
"	if err := query.ValidateConstsDim(ctx.Dim(), sc); err != nil {";
"		return cnf.CNF{}, err";
"	}";
"";
"	ncnf := cnf.CNF{}";
"	ncnf = ncnf.AppendConsistency(varBotCountClauses(sv, svCount, ctx)...)";
"";
"	for i := 0; i < sc.BotCount(); i++ {";
"		ncnf = ncnf.AppendSemantics(";
"			cnf.Clause{-ctx.CNFVar(svCount, ctx.Dim()-1, i)},";
"		)";
"	}";
"";
"	return ncnf, nil";
"}"
].

Definition text_query_predicates_lel_var_var : string := lines [
"package lel";
"";
"import (";
"	""errors""";
"";
"	""github.com/jtcaraball/goexpdt/cnf""";
"	""github.com/jtcaraball/goexpdt/query""";
")";
"";
"// VarVar is the variable-variable version of the Less or Equal Level";
"// predicate.";
"type VarVar struct {";
"	I1 query.QVar";
"	I2 query.QVar";
"	// CountVarGen returns a variable generated from v that will be used to";
"	// encode the amount of features equal to bot in v.";
"	CountVarGen func(v query.QVar) query.QVar";
"}";
"";
"// Ecoding returns a CNF that is true if and only if the query variable l.I1";
"// has more or equal amount of BOT valued features than the query variable";
"// l.I2.";
"func (l VarVar) Encoding(ctx query.QContext) (cnf.CNF, error) {";
"	if ctx == nil {";
"		return cnf.CNF{}, errors.New(""Invalid encoding with nil ctx"")";
"	}";
"	if l.CountVarGen == nil {";
"		return cnf.CNF{}, errors.New(""Invalid nil var generation function"")";
"	}";
"";
"	sv1 := ctx.ScopeVar(l.I1)";
"	sv2 := ctx.ScopeVar(l.I2)";
"	svCount1 := l.CountVarGen(sv1)";
"	svCount2 := l.CountVarGen(sv2)";
"";
"	ncnf := cnf.CNF{}";
"";
"	ncnf = ncnf.AppendConsistency(varBotCountClauses(sv1, svCount1, ctx)...)";
"	ncnf = ncnf.AppendConsistency(varBotCountClauses(sv2, svCount2, ctx)...)";
"";
"	// If we see a number of bots in x then we must see less or equal on y";
"	var i, j int";
"	for i = 0; i < ctx.Dim(); i++ {";
"		cl := cnf.Clause{-ctx.CNFVar(svCount1, ctx.Dim()-1, i)}";
"		for j = 0; j <= i; j++ {";
"			cl = append(";
"				cl,";
"				ctx.CNFVar(svCount2, ctx.Dim()-1, j),";
"			)";
"		}";
"		ncnf = ncnf.AppendSemantics(cl)";
"	}";
"";
"	return ncnf, nil";
"}"
].

Definition text_query_predicates_subsumption_const_const : string := lines [
"package subsumption";
"";
"import (";
"	""errors""";
"";
"	""github.com/jtcaraball/goexpdt/cnf""";
"	""github.com/jtcaraball/goexpdt/query""";
")";
"";
"// ConstConst is the constant-constant version of the Subsumption predicate.";
"type ConstConst struct {";
"	I1 query.QConst";
"	I2 query.QConst";
"}";
"";
"// Encoding returns a CNF that is true if and only if the query constant s.I1";
"// is subsumed by the query constant s.I2.";
"func (s ConstConst) Encoding(ctx query.QContext) (cnf.CNF, error) {";
"	if ctx == nil {";
"		return cnf.CNF{}, errors.New(""Invalid encoding with nil ctx"")";
"	}";
"";
"	sc1, _ := ctx.ScopeConst(s.I1)";
"	sc2, _ := ctx.ScopeConst(s.I2)";
"";
"	if err := query.ValidateConstsDim(";
"		ctx.Dim(),";
"		sc1,";
"		sc2,";
"	); err != nil {";
"		return cnf.CNF{}, err";
"	}";
"";
"	for i, ft := range sc1.Val {";
"		if ft != query.BOT && ft != sc2.Val[i] {";
"			return cnf.FalseCNF, nil";
"		}";
"	}";
"";
"	return cnf.TrueCNF, nil";
"}"
].

Definition text_query_predicates_subsumption_const_var : string := lines [
"package subsumption";
"";
"import (";
"	""errors""";
"";
"	""github.com/jtcaraball/goexpdt/cnf""";
"	""github.com/jtcaraball/goexpdt/query""";
")";
"";
"// ConstVar is the constant-variable version of the Subsumption predicate.";
"type ConstVar struct {";
"	I1 query.QConst";
"	I2 query.QVar";
"}";
"";
"// Encoding returns a CNF that is true if and only if the query constant s.I1";
"// is subsumed by the query variable s.I2.";
"func (s ConstVar) Encoding(ctx query.QContext) (cnf.CNF, error) {";
"	if ctx == nil {";
"		return cnf.CNF{}, errors.New(""Invalid encoding with nil ctx"")";
"	}";
"";
"	sv := ctx.ScopeVar(s.I2)";
"	sc, _ := ctx.ScopeConst(s.I1)";
"";
"	if err := query.ValidateConstsDim(ctx.Dim(), sc); err != nil {";
"		return cnf.CNF{}, err";
"	}";
"";
"	clauses := []cnf.Clause{}";
"	for i, ft := range sc.Val {";
"		if ft != query.BOT {";
"			clauses = append(";
"				clauses,";
"				cnf.Clause{ctx.CNFVar(sv, i, int(ft))},";
"			)";
"		}";
"	}";
"";
"	return cnf.FromClauses(clauses), nil";
"}"
].

Definition text_query_predicates_subsumption_subsumption : string := lines [
"// Subsumption predicate explanation here.";
"//";
"// Given a model M and partial instances e1 and e2 we say that M satisfies";
"// Subsumption(e1, e2) if and only if for every feature i it holds that";
"// if e1[i] != bottom then e1[i] == e2[i].";
"package subsumption"
].

Definition text_query_predicates_subsumption_var_const : string := lines [
"package subsumption";
"";
"import (";
"	""errors""";
"";
"	""github.com/jtcaraball/goexpdt/cnf""";
"	""github.com/jtcaraball/goexpdt/query""";
")";
"";
"// VarConst is the variable-constant version of the Subsumption predicate.";
"type VarConst struct {";
"	I1 query.QVar";
"	I2 query.QConst";
"}";
"";
"// Encoding returns a CNF that is true if and only if the query variable s.I1";
"// is subsumed by the query constant s.I2.";
"func (s VarConst) Encoding(ctx query.QContext) (cnf.CNF, error) {";
"	if ctx == nil {";
"		return cnf.CNF{}, errors.New(""Invalid encoding with nil ctx"")";
"	}";
"";
"	sv := ctx.ScopeVar(s.I1)";
"	sc, _ := ctx.ScopeConst(s.I2)";
"";
"	if err := query.ValidateConstsDim(ctx.Dim(), sc); err != nil {";
"		return cnf.CNF{}, err";
"	}";
"";
"	clauses := []cnf.Clause{}";
"	for i, ft := range sc.Val {";
"		if ft == query.ONE {";
"			clauses = append(";
"				clauses,";
"				cnf.Clause{-ctx.CNFVar(sv, i, int(query.ZERO))},";
"			)";
"			continue";
"		}";
"		if ft == query.ZERO {";
"			clauses = append(";
"				clauses,";
"				cnf.Clause{-ctx.CNFVar(sv, i, int(query.ONE))},";
"			)";
"			continue";
"		}";
"		clauses = append(";
"			clauses,";
"			cnf.Clause{-ctx.CNFVar(sv, i, int(query.ONE))},";
"			cnf.Clause{-ctx.CNFVar(sv, i, int(query.ZERO))},";
"		)";
"	}";
"";
"	return cnf.FromClauses(clauses), nil";
"}"
].

Definition text_query_predicates_subsumption_var_var : string := lines [
"package subsumption";
"";
"import (";
"	""errors""";
"";
"	""github.com/jtcaraball/goexpdt/cnf""";
"	""github.com/jtcaraball/goexpdt/query""";
")";
"";
"// VarVar is the variable-variable version of the Subsumption predicate.";
"type VarVar struct {";
"	I1 query.QVar";
"	I2 query.QVar";
"}";
"";
"// Encoding returns a CNF that is true if and only if the query variable s.I1";
"// is subsumed by the query variable s.I2.";
"func (s VarVar) Encoding(ctx query.QContext) (cnf.CNF, error) {";
"	if ctx == nil {";
"		return cnf.CNF{}, errors.New(""Invalid encoding with nil ctx"")";
"	}";
"";
"	sv1 := ctx.ScopeVar(s.I1)";
"	sv2 := ctx.ScopeVar(s.I2)";
"";
"	clauses := []cnf.Clause{}";
"";
"	for i := 0; i < ctx.Dim(); i++ {";
"		clauses = append(";
"			clauses,";
"			[]int{";
"				-ctx.CNFVar(sv1, i, int(query.ONE)),";
"				ctx.CNFVar(sv2, i, int(query.ONE)),";
"			},";
"			[]int{";
"				-ctx.CNFVar(sv1, i, int(query.ZERO)),";
"				ctx.CNFVar(sv2, i, int(query.ZERO)),";
"			},";
"		)";
"	}";
"";
"	return cnf.FromClauses(clauses), nil";
"}"
].

Definition text_examples_computation : string := lines [
"package main";
"";
"// In this example we compute a minimal sufficient reason for the instance";
"// c = (0, 1, 1) over the Decision Tree T defined as:";
"//";
"// T: f0 -0-> f1 -0-> f2 -0-> true";
"//      |       |       |";
"//      |       |        -1-> true";
"//      |       |";
"//      |        -1-> true";
"//      |";
"//       -1-> f2 -0-> false";
"//              |";
"//               -1-> f1 -0-> true";
"//                      |";
"//                       -1-> false";
"//";
"// A sufficient reason of c over T is defined as a partial instance x such that";
"// x is subsumed by c and all possible completions of x have the same";
"// classification as c.";
"//";
"// A minimal partial instance is defined as a partial instance x such that";
"// there is no other partial instance y where x != y and y is subsumed by x.";
"//";
"// Thus a minimal sufficient reason of c is a partial instance x such that";
"// x is a sufficient reason of c and there are no other partial instance y";
"// where y != x, y is subsumed by x and y is a sufficient reason of c.";
"//";
"// In Opt-DT-Foil this query is understood as follows: What is an instance x";
"// that satisfies the property 'sufficient reason of c' that is optimal in the";
"// subsumption order (minimal). Note that it can be expressed in the logic";
"// because:";
"//";
"// 1. Both the property and the order can be written in the second and first";
"//    layer of the DT-Foil logic respectively.";
"// 2. The subsumption order is a strict partial order.";
"//";
"// The following code computes such an instance.";
"";
"import (";
"	""fmt""";
"	""strings""";
"";
"	""github.com/jtcaraball/goexpdt/compute""";
"	""github.com/jtcaraball/goexpdt/query""";
"	""github.com/jtcaraball/goexpdt/query/extensions/allcomp""";
"	""github.com/jtcaraball/goexpdt/query/logop""";
"	""github.com/jtcaraball/goexpdt/query/predicates/subsumption""";
")";
"";
"// First we define a decision tree struct that implements the query.Model";
"// interface.";
"type optDTree struct {";
"	dim   int";
"	nodes []query.Node";
"}";
"";
"func (t optDTree) Dim() int {";
"	return t.dim";
"}";
"";
"func (t optDTree) Nodes() []query.Node {";
"	return t.nodes";
"}";
"";
"// Then we define a function to generate, given a variable v, a new variable";
"// used to encode the notion of reachability in the model.";
"func reachableVarGen(v query.QVar) query.QVar {";
"	return query.QVar(""r"" + string(v))";
"}";
"";
"func ComputationExample() {";
"	// We instantiate a decision tree and create a basic context from it.";
"	tree := optDTree{";
"		dim: 3,";
"		nodes: []query.Node{";
"			{Feat: 0, ZChild: 1, OChild: 6},";
"			{Feat: 1, ZChild: 2, OChild: 5},";
"			{Feat: 2, ZChild: 3, OChild: 4},";
"			{Value: true, ZChild: query.NoChild, OChild: query.NoChild},";
"			{Value: true, ZChild: query.NoChild, OChild: query.NoChild},";
"			{Value: true, ZChild: query.NoChild, OChild: query.NoChild},";
"			{Feat: 2, ZChild: 7, OChild: 8},";
"			{Value: false, ZChild: query.NoChild, OChild: query.NoChild},";
"			{Feat: 1, ZChild: 9, OChild: 10},";
"			{Value: true, ZChild: query.NoChild, OChild: query.NoChild},";
"			{Value: false, ZChild: query.NoChild, OChild: query.NoChild},";
"		},";
"	}";
"	ctx := query.BasicQContext(tree)";
"";
"	// We define the partial instance c = (0, 1, 1).";
"	c := query.QConst{";
"		Val: []query.FeatV{query.ZERO, query.ONE, query.ONE},";
"	}";
"";
"	// We define two generator function that return queries representing the";
"	// property of sufficient reason and a strict partial order under";
"	// subsumption (minimality).";
"	// These will be used by the optimization algorithm.";
"	sufficientReason := func(v query.QVar) compute.Encodable {";
"		return logop.WithVar{";
"			I: v,";
"			Q: logop.And{";
"				Q1: subsumption.VarConst{I1: v, I2: c},";
"				Q2: logop.And{";
"					Q1: logop.Or{";
"						Q1: logop.Not{";
"							Q: allcomp.Const{I: c, LeafValue: true},";
"						},";
"						Q2: allcomp.Var{";
"							I:               v,";
"							LeafValue:       true,";
"							ReachNodeVarGen: reachableVarGen,";
"						},";
"					},";
"					Q2: logop.Or{";
"						Q1: logop.Not{";
"							Q: allcomp.Const{I: c, LeafValue: false},";
"						},";
"						Q2: allcomp.Var{";
"							I:               v,";
"							LeafValue:       false,";
"							ReachNodeVarGen: reachableVarGen,";
"						},";
"					},";
"				},";
"			},";
"		}";
"	}";
"";
"	strictSubsumption := func(v query.QVar, u query.QConst) compute.Encodable {";
"		return logop.And{";
"			Q1: subsumption.VarConst{I1: v, I2: u},";
"			Q2: logop.Not{Q: subsumption.ConstVar{I1: u, I2: v}},";
"		}";
"	}";
"";
"	// Now we can compute a minimal sufficient reason for c using a sat solver";
"	// specified by the path stored in the environment variable";
"	// ""path_to_solver_binary"".";
"";
"	solver, err := compute.BinSolver(""path_to_solver_binary"")";
"	if err != nil {";
"		panic(err)";
"	}";
"";
"	output, err := compute.ComputeOptim(";
"		sufficientReason,";
"		strictSubsumption,";
"		query.QVar(""x""),";
"		ctx,";
"		solver,";
"	)";
"	if err != nil {";
"		panic(err)";
"	}";
"";
"	if output.Found {";
"		fmt.Printf(";
"			""Value found: %s\n"",";
"			strings.Split(output.Value.AsString(), """"),";
"		)";
"	} else {";
"		fmt.Println(""No value exists."")";
"	}";
"}"
].

Definition text_examples_evaluation : string := lines [
"package main";
"";
"// In this example we evaluate the query Q(x): x is partial instance such that";
"// x is a DFS (Determinant Feature Set) of a Decision Tree T and for every";
"// instance y if y has less defined features than x then y is not a DFS of T.";
"// In particular we will evaluate Q(c) where c = (_, 0, _) over T defined as:";
"//";
"// T: f0 -0-> f1 -0-> f2 -0-> false";
"//      |       |       |";
"//      |       |        -1-> false";
"//      |       |";
"//      |        -1-> f2 -0-> true";
"//      |               |";
"//      |                -1-> true";
"//      |";
"//       -1-> f2 -0-> f1 -0-> false";
"//              |       |";
"//              |        -1-> true";
"//              |";
"//               -1-> f1 -0-> false";
"//                      |";
"//                       -1-> true";
"//";
"// A DFS of a Decision Tree T is defined as a partial instance x such all";
"// possible completions of x have the same classification. Thus Q(x) is true";
"// if and only if x is the one of the partial instances with the least defined";
"// features that are a DFS of T.";
"//";
"// In Q-DT-Foil this query is understood as follows: Given an partial instance";
"// c determine the truth value of Q(c). Note that it can be expressed in the";
"// logic because it is boolean combination of formulas with a single";
"// non-guarded quantifier.";
"//";
"// The following code evaluates Q(c).";
"";
"import (";
"	""fmt""";
"";
"	""github.com/jtcaraball/goexpdt/compute""";
"	""github.com/jtcaraball/goexpdt/query""";
"	""github.com/jtcaraball/goexpdt/query/extensions/dfs""";
"	""github.com/jtcaraball/goexpdt/query/logop""";
"	""github.com/jtcaraball/goexpdt/query/predicates/lel""";
")";
"";
"// First we define a decision tree struct that implements the query.Model";
"// interface.";
"type evalDTree struct {";
"	dim   int";
"	nodes []query.Node";
"}";
"";
"func (t evalDTree) Dim() int {";
"	return t.dim";
"}";
"";
"func (t evalDTree) Nodes() []query.Node {";
"	return t.nodes";
"}";
"";
"// Then we define a function to generate, given a variable v, a new variable";
"// used to encode the count of bottom variables.";
"func botCountVarGen(v query.QVar) query.QVar {";
"	return query.QVar(""cbot"" + string(v))";
"}";
"";
"func EvaluationExample() {";
"	// We instantiate a decision tree and create a basic context from it.";
"	tree := evalDTree{";
"		dim: 3,";
"		nodes: []query.Node{";
"			{Feat: 0, ZChild: 1, OChild: 8},";
"			{Feat: 1, ZChild: 2, OChild: 5},";
"			{Feat: 2, ZChild: 3, OChild: 4},";
"			{Value: false, ZChild: query.NoChild, OChild: query.NoChild},";
"			{Value: false, ZChild: query.NoChild, OChild: query.NoChild},";
"			{Feat: 2, ZChild: 6, OChild: 7},";
"			{Value: true, ZChild: query.NoChild, OChild: query.NoChild},";
"			{Value: true, ZChild: query.NoChild, OChild: query.NoChild},";
"			{Feat: 2, ZChild: 9, OChild: 12},";
"			{Feat: 1, ZChild: 10, OChild: 11},";
"			{Value: false, ZChild: query.NoChild, OChild: query.NoChild},";
"			{Value: true, ZChild: query.NoChild, OChild: query.NoChild},";
"			{Feat: 1, ZChild: 13, OChild: 14},";
"			{Value: false, ZChild: query.NoChild, OChild: query.NoChild},";
"			{Value: true, ZChild: query.NoChild, OChild: query.NoChild},";
"		},";
"	}";
"	ctx := query.BasicQContext(tree)";
"";
"	// We define the partial instance c = (_, 0, _) and variable y.";
"	c := query.QConst{";
"		Val: []query.FeatV{query.BOT, query.ZERO, query.BOT},";
"	}";
"	y := query.QVar(""y"")";
"";
"	// Note that Q(c) uses a universal quantifier while SAT solvers, as the";
"	// name implies, can only answer in regards to the existance of a single";
"	// evaluation that makes a formula true. Because of this in order to answer";
"	// Q(c) we must define and solve for Q'(c) = -Q(c). For a formal definition";
"	// of DFS(x) please refer to section 5.1 of the paper.";
"	qry := logop.Or{";
"		Q1: logop.Not{Q: dfs.Const{I: c}},";
"		Q2: logop.WithVar{";
"			I: y,";
"			Q: logop.And{";
"				Q1: dfs.Var{I: y},";
"				Q2: logop.And{";
"					Q1: lel.VarConst{";
"						I1:          y,";
"						I2:          c,";
"						CountVarGen: botCountVarGen,";
"					},";
"					Q2: logop.Not{";
"						Q: lel.ConstVar{";
"							I1:          c,";
"							I2:          y,";
"							CountVarGen: botCountVarGen,";
"						},";
"					},";
"				},";
"			},";
"		},";
"	}";
"";
"	// Now we can evaluate if Q'(c) is satsfiable or not using a sat solver";
"	// specified by the path stored in the environment variable";
"	// ""path_to_solver_binary"".";
"";
"	solver, err := compute.BinSolver(""path_to_solver_binary"")";
"	if err != nil {";
"		panic(err)";
"	}";
"";
"	boolComb := compute.QDTFAtom{";
"		Query:   qry,";
"		Negated: true,";
"	}";
"";
"	result, err := boolComb.Sat(ctx, solver)";
"	if err != nil {";
"		panic(err)";
"	}";
"";
"	fmt.Println(result)";
"}"
].

Definition repo_text : list (string * string) :=
  [
    ("cnf/cnf.go", text_cnf_cnf);
    ("compute/boolcomb.go", text_compute_boolcomb);
    ("compute/compute.go", text_compute_compute);
    ("compute/optimum.go", text_compute_optimum);
    ("compute/solver.go", text_compute_solver);
    ("query/context.go", text_query_context);
    ("query/instances.go", text_query_instances);
    ("query/model.go", text_query_model);
    ("query/query.go", text_query_query);
    ("query/scoper.go", text_query_scoper);
    ("query/varmanager.go", text_query_varmanager);
    ("query/extensions/allcomp/allcomp.go", text_query_extensions_allcomp_allcomp);
    ("query/extensions/allcomp/const.go", text_query_extensions_allcomp_const);
    ("query/extensions/allcomp/var.go", text_query_extensions_allcomp_var);
    ("query/extensions/cons/cons.go", text_query_extensions_cons_cons);
    ("query/extensions/cons/const_const.go", text_query_extensions_cons_const_const);
    ("query/extensions/cons/const_var.go", text_query_extensions_cons_const_var);
    ("query/extensions/cons/var_const.go", text_query_extensions_cons_var_const);
    ("query/extensions/cons/var_var.go", text_query_extensions_cons_var_var);
    ("query/extensions/dfs/const.go", text_query_extensions_dfs_const);
    ("query/extensions/dfs/dfs.go", text_query_extensions_dfs_dfs);
    ("query/extensions/dfs/utils.go", text_query_extensions_dfs_utils);
    ("query/extensions/dfs/var.go", text_query_extensions_dfs_var);
    ("query/extensions/full/const.go", text_query_extensions_full_const);
    ("query/extensions/full/full.go", text_query_extensions_full_full);
    ("query/extensions/full/var.go", text_query_extensions_full_var);
    ("query/extensions/hepr/const_const.go", text_query_extensions_hepr_const_const);
    ("query/extensions/hepr/const_var.go", text_query_extensions_hepr_const_var);
    ("query/extensions/hepr/hepr.go", text_query_extensions_hepr_hepr);
    ("query/extensions/hepr/util.go", text_query_extensions_hepr_util);
    ("query/extensions/hepr/var_const.go", text_query_extensions_hepr_var_const);
    ("query/extensions/hepr/var_var.go", text_query_extensions_hepr_var_var);
    ("query/extensions/leh/const_const_const.go", text_query_extensions_leh_const_const_const);
    ("query/extensions/leh/const_const_var.go", text_query_extensions_leh_const_const_var);
    ("query/extensions/leh/const_var_const.go", text_query_extensions_leh_const_var_const);
    ("query/extensions/leh/const_var_var.go", text_query_extensions_leh_const_var_var);
    ("query/extensions/leh/leh.go", text_query_extensions_leh_leh);
    ("query/extensions/leh/utils.go", text_query_extensions_leh_utils);
    ("query/extensions/leh/var_const_const.go", text_query_extensions_leh_var_const_const);
    ("query/extensions/leh/var_const_var.go", text_query_extensions_leh_var_const_var);
    ("query/extensions/leh/var_var_const.go", text_query_extensions_leh_var_var_const);
    ("query/extensions/leh/var_var_var.go", text_query_extensions_leh_var_var_var);
    ("query/logop/and.go", text_query_logop_and);
    ("query/logop/forallguarded.go", text_query_logop_forallguarded);
    ("query/logop/logop.go", text_query_logop_logop);
    ("query/logop/not.go", text_query_logop_not);
    ("query/logop/or.go", text_query_logop_or);
    ("query/logop/with_var.go", text_query_logop_with_var);
    ("query/predicates/isnode/const.go", text_query_predicates_isnode_const);
    ("query/predicates/isnode/isnode.go", text_query_predicates_isnode_isnode);
    ("query/predicates/isnode/var.go", text_query_predicates_isnode_var);
    ("query/predicates/lel/const_const.go", text_query_predicates_lel_const_const);
    ("query/predicates/lel/const_var.go", text_query_predicates_lel_const_var);
    ("query/predicates/lel/lel.go", text_query_predicates_lel_lel);
    ("query/predicates/lel/utils.go", text_query_predicates_lel_utils);
    ("query/predicates/lel/var_const.go", text_query_predicates_lel_var_const);
    ("query/predicates/lel/var_var.go", text_query_predicates_lel_var_var);
    ("query/predicates/subsumption/const_const.go", text_query_predicates_subsumption_const_const);
    ("query/predicates/subsumption/const_var.go", text_query_predicates_subsumption_const_var);
    ("query/predicates/subsumption/subsumption.go", text_query_predicates_subsumption_subsumption);
    ("query/predicates/subsumption/var_const.go", text_query_predicates_subsumption_var_const);
    ("query/predicates/subsumption/var_var.go", text_query_predicates_subsumption_var_var);
    ("examples/computation.go", text_examples_computation);
    ("examples/evaluation.go", text_examples_evaluation)
  ].
