{
 "claims": [
  {
   "property": "C01",
   "status": "proved",
   "theorems": [
    "C01_negate_is_negation"
   ],
   "note": ""
  },
  {
   "property": "C02",
   "status": "proved",
   "theorems": [
    "C02_negate_fresh_definitions",
    "C02_negation_satisfiable_iff"
   ],
   "note": ""
  },
  {
   "property": "C03",
   "status": "proved",
   "theorems": [
    "C03_conjunction",
    "C03_append_exact"
   ],
   "note": ""
  },
  {
   "property": "C04",
   "status": "proved",
   "theorems": [
    "C04_topv_bounds_literals",
    "C04_topv_never_decreases",
    "C04_no_zero_literal"
   ],
   "note": ""
  },
  {
   "property": "C05",
   "status": "proved",
   "theorems": [
    "C05_dimacs_roundtrip",
    "C05_tofile",
    "C05_tofile_success"
   ],
   "note": ""
  },
  {
   "property": "C06",
   "status": "proved",
   "theorems": [
    "C06_stable_and_positive",
    "C06_injective",
    "C06_update_reserves",
    "C06_topv_monotone"
   ],
   "note": ""
  },
  {
   "property": "C07",
   "status": "partial",
   "theorems": [
    "C07_reset_is_fresh",
    "C07_reset_any_context",
    "C07_reset_exact",
    "C07_reset_refuted"
   ],
   "note": "The statement is false when Reset is called while scopes are open (C07_reset_refuted); proved for histories whose resets find an empty stack, and for every observation but ScopeVar otherwise. C07_reset_exact: Reset is as good as new exactly when the history before it left no variable registered inside a scope."
  },
  {
   "property": "C08",
   "status": "proved",
   "theorems": [
    "C08_scoped_names_injective",
    "C08_scoped_names_functional"
   ],
   "note": ""
  },
  {
   "property": "C09",
   "status": "proved",
   "theorems": [
    "C09_pop_restores",
    "C09_empty_stack_errors",
    "C09_scopevar_total"
   ],
   "note": ""
  },
  {
   "property": "C10",
   "status": "partial",
   "theorems": [
    "C10_unbound_keeps_value",
    "C10_innermost_value",
    "C10_set_scope_binds",
    "C10_outermost_value",
    "C10_outermost_unique",
    "C10_nested_same_id_refuted"
   ],
   "note": "False for nested quantifiers with one ID (outermost wins); proved when open scopes have distinct targets. C10_outermost_value says for every stack what the value is."
  },
  {
   "property": "C11",
   "status": "proved",
   "theorems": [
    "C11_one_value",
    "C11_every_instance",
    "C11_query_every_instance"
   ],
   "note": "Exactly one value: any sub-query, any context in which the name is new. Every instance: the declaration's clauses alone in any context, and all consistency clauses of a well-formed query in a new context."
  },
  {
   "property": "C12",
   "status": "proved",
   "theorems": [
    "C12_subsumption_exact"
   ],
   "note": ""
  },
  {
   "property": "C13",
   "status": "proved",
   "theorems": [
    "C13_lel_exact"
   ],
   "note": ""
  },
  {
   "property": "C14",
   "status": "proved",
   "theorems": [
    "C14_node_exact"
   ],
   "note": ""
  },
  {
   "property": "C15",
   "status": "proved",
   "theorems": [
    "C15_full_exact"
   ],
   "note": ""
  },
  {
   "property": "C16",
   "status": "proved",
   "theorems": [
    "C16_cons_exact"
   ],
   "note": ""
  },
  {
   "property": "C17",
   "status": "proved",
   "theorems": [
    "C17_allcomp_exact"
   ],
   "note": ""
  },
  {
   "property": "C18",
   "status": "proved",
   "theorems": [
    "C18_dfs_exact"
   ],
   "note": ""
  },
  {
   "property": "C19",
   "status": "proved",
   "theorems": [
    "C19_hepr_exact"
   ],
   "note": ""
  },
  {
   "property": "C20",
   "status": "partial",
   "theorems": [
    "C20_leh_exact_partial",
    "C20_leh_as_coded",
    "C20_leh_cvc_refuted",
    "C20_leh_ccv_refuted"
   ],
   "note": "All eight versions, except that the versions const-var-const (constants at distance dim) and const-const-var (equal constants) answer True for a variable that is not full: refuted with witnesses. C20_leh_as_coded gives the exact meaning of those two versions."
  },
  {
   "property": "C21",
   "status": "proved",
   "theorems": [
    "C21_not",
    "C21_and",
    "C21_or",
    "C21_succeeds"
   ],
   "note": ""
  },
  {
   "property": "C22",
   "status": "proved",
   "theorems": [
    "C22_each_node",
    "C22_once",
    "C22_turns",
    "C22_bound"
   ],
   "note": ""
  },
  {
   "property": "C23",
   "status": "proved",
   "theorems": [
    "C23_sat",
    "C23_any_context"
   ],
   "note": "Well-formed is the record wf_query, naming discipline of the generators is the record tidy (met by the project's own generators, rs_tidy); LEH of const-var-const is outside tidy and covered by C23_any_context when its generated names do not clash."
  },
  {
   "property": "C24",
   "status": "proved",
   "theorems": [
    "C24_first_order"
   ],
   "note": ""
  },
  {
   "property": "C25",
   "status": "proved",
   "theorems": [
    "C25_values",
    "C25_splitting"
   ],
   "note": "Well-formed, tidy query in a new context; outputs with any text lines in between."
  },
  {
   "property": "C26",
   "status": "proved",
   "theorems": [
    "C26_atom",
    "C26_first_order"
   ],
   "note": "Assumes the encoding's last variable number is below 2^63 and that the temporary files can be created and written; the premises on the solver are met by the verified DPLL solver (ideal_correct)."
  },
  {
   "property": "C27",
   "status": "proved",
   "theorems": [
    "C27_and",
    "C27_or",
    "C27_determined",
    "C27_and_true",
    "C27_or_true",
    "C27_error",
    "C27_panic"
   ],
   "note": ""
  },
  {
   "property": "C28",
   "status": "proved",
   "theorems": [
    "C28_none",
    "C28_optimal",
    "C28_whatever_order"
   ],
   "note": ""
  },
  {
   "property": "C29",
   "status": "proved",
   "theorems": [
    "C29_measure",
    "C29_subsumption",
    "C29_level"
   ],
   "note": ""
  },
  {
   "property": "C30",
   "status": "proved",
   "theorems": [
    "C30_component",
    "C30_query"
   ],
   "note": ""
  },
  {
   "property": "C31",
   "status": "proved",
   "theorems": [
    "C31_nil_context",
    "C31_nil_child",
    "C31_nil_generator",
    "C31_query",
    "C31_propagates"
   ],
   "note": ""
  },
  {
   "property": "C32",
   "status": "proved",
   "theorems": [
    "C32_scopes_restored",
    "C32_quantifier"
   ],
   "note": ""
  },
  {
   "property": "C33",
   "status": "proved",
   "theorems": [
    "C33_numbers_kept",
    "C33_negation_variables"
   ],
   "note": ""
  },
  {
   "property": "C34",
   "status": "partial",
   "theorems": [
    "C34_refuted",
    "C34_optim_refuted",
    "C34_reset",
    "C34_after_reset"
   ],
   "note": "False: WithVar leaves out the consistency clauses when the variable is already in the context, so the second evaluation of an unsatisfiable query answers true, and the second ComputeOptim finds an instance. True with Context.Reset between the calls: after any sequence of evaluations, optimisations and reads, Reset gives a new context, hence the right answers."
  },
  {
   "property": "C35",
   "status": "partial",
   "theorems": [
    "C35_encoding",
    "C35_used_once",
    "C35_one_call",
    "C35_append_refuted",
    "C35_negate_refuted"
   ],
   "note": "False when a CNF is the receiver of two calls (two witnesses). True of a single call, of every CNF built by using each CNF once, and of the library's own use of the methods: encoding on shared arrays gives what encoding on values gives."
  },
  {
   "property": "C36",
   "status": "partial",
   "theorems": [
    "C36_no_panic",
    "C36_any_model",
    "C37_endings",
    "C36_empty_preference_refuted",
    "C36_no_features_refuted"
   ],
   "note": "Proved for every query in which HEPR with a variable has a non-empty preference; false otherwise (panic), and LEH panics on a model without features."
  },
  {
   "property": "C37",
   "status": "partial",
   "theorems": [
    "C37_checked",
    "C37_no_loop",
    "C37_endings",
    "C37_allcomp_endings",
    "C37_unchecked_components_refuted",
    "C37_cycle_refuted"
   ],
   "note": "True of ForAllGuarded and dfs, which validate every node; false of AllComp of a constant and IsNode of a variable (panic), AllComp of a variable (CNF), dfs on no nodes (panic), IsNode of a constant on a cycle (endless loop)."
  },
  {
   "property": "C38",
   "status": "partial",
   "theorems": [
    "C38_refuted"
   ],
   "note": "False: Node and AllComp define the same auxiliary variables differently; with one generator a query true of the root is unsatisfiable. With two generators C23 and C24 apply."
  },
  {
   "property": "C39",
   "status": "partial",
   "theorems": [
    "C39_leh_refuted",
    "C39_hepr_refuted"
   ],
   "note": "False: LEH const-var-const names its counter after the wrong constant; HEPR writes the preferences [1,11] and [11,1] with the same name. True of the other versions and of preferences written differently (C23, C24 under tidy)."
  },
  {
   "property": "C40",
   "status": "proved",
   "theorems": [
    "C40_all_bot",
    "C40_full_botcount",
    "C40_equal_value",
    "C40_as_string_injective",
    "C40_validate_dims"
   ],
   "note": ""
  },
  {
   "property": "C41",
   "status": "proved",
   "theorems": [
    "C41_trivially_true",
    "C41_trivially_false",
    "C41_constants_recognised"
   ],
   "note": ""
  },
  {
   "property": "C42",
   "status": "proved",
   "theorems": [
    "C42_minimal_reason"
   ],
   "note": ""
  },
  {
   "property": "C43",
   "status": "proved",
   "theorems": [
    "C43_minimum_dfs",
    "C43_as_commented_refuted"
   ],
   "note": "The second theorem: with the definition of DFS given in the program's comment, instead of the one the predicate implements, the printed answer would be wrong."
  },
  {
   "property": "C44",
   "status": "proved",
   "theorems": [
    "C44_structure",
    "C44_polynomial",
    "C44_fits"
   ],
   "note": ""
  },
  {
   "property": "C45",
   "status": "proved",
   "theorems": [
    "C45_never_ends",
    "C45_reflexive"
   ],
   "note": ""
  },
  {
   "property": "C46",
   "status": "partial",
   "theorems": [
    "C46_negation_refuted",
    "C46_siblings_refuted",
    "C46_quantifiers_refuted",
    "C46_shadowing_refuted"
   ],
   "note": "False in each of the four positions, one witness each; true when every variable is declared once and not under a Not (C24)."
  },
  {
   "property": "C47",
   "status": "proved",
   "theorems": [
    "C47_combination"
   ],
   "note": "Assumes the variable numbers of the final context fit into an int."
  },
  {
   "property": "C48",
   "status": "proved",
   "theorems": [
    "C48_readme_query",
    "C48_as_described_refuted"
   ],
   "note": "The second theorem: on a tree with positive instances only, the sentence in the README is true and the query answers false, since it asks for LeafValue false."
  },
  {
   "property": "C49",
   "status": "partial",
   "theorems": [
    "C49_polynomial_refuted",
    "C49_every_walk",
    "C49_subsumption_tight",
    "C29_measure",
    "C29_subsumption",
    "C29_level"
   ],
   "note": "False: with the strict order of hepr (feature preference) on a tree with one node, a correct solver can make ComputeOptim use 2^dim + 1 calls. In general every walk down the order is the run of some correct solver (C49_every_walk), and calls are bounded by the height of the order (C29_measure): dim + 2 for subsumption and level orders, which is reached."
  },
  {
   "property": "C50",
   "status": "partial",
   "theorems": [
    "C50_exactly",
    "C50_prints",
    "C50_any_output_refuted",
    "C25_values"
   ],
   "note": "False: a second blank between numbers or a blank at the end of a line is an error, a v alone panics. C50_exactly says for every output in the format what happens; with one blank before each number it is read as C25 says."
  },
  {
   "property": "C51",
   "status": "proved",
   "theorems": [
    "C51_shared_buffer",
    "C51_new_context",
    "C51_kept_constant_changes"
   ],
   "note": "The third theorem: a constant obtained from ScopeConst and kept past its turn does change, so the sharing is observable by code that keeps one; the encoders do not."
  },
  {
   "property": "C52",
   "status": "proved",
   "theorems": [
    "C52_machine_integers",
    "C52_sizes",
    "C52_overflow_refuted"
   ],
   "note": "The third theorem shows the condition is needed: after ctx.UpdateTopV(MaxInt) the next number is MinInt, its own negation."
  },
  {
   "property": "C53",
   "status": "proved",
   "theorems": [
    "C53_threads",
    "C53_no_file_left",
    "C53_answers",
    "C53_optimal",
    "C53_not_stuck",
    "C53_shared_solver_refuted"
   ],
   "note": "Removing a file made by CreateTemp is assumed to succeed. The last theorem: with one solver value for two evaluations, Values of the first returns the instance of the second, so solver values must not be shared."
  },
  {
   "property": "C54",
   "status": "proved",
   "theorems": [
    "C54_reads",
    "C54_satisfiable",
    "C54_context",
    "C54_visits",
    "C54_same_on_library",
    "C54_unregistered_refuted"
   ],
   "note": "The last theorem shows the condition is needed."
  },
  {
   "property": "C55",
   "status": "partial",
   "theorems": [
    "C55_const_exact",
    "C55_var_exact",
    "C55_readings",
    "C55_tested_again_refuted",
    "C55_forgotten_test_refuted",
    "C55_forgotten_test_dfs_refuted",
    "C55_shared_node_refuted",
    "C55_shared_forall_refuted",
    "C55_stray_node_refuted"
   ],
   "note": "True of isnode on constants for every unfolding list, of isnode on variables for every tree; allcomp decides whether a branch leads to the other class, which implies the documented meaning and equals it when no feature is tested twice. False, with witnesses: allcomp, ForAllGuarded and dfs when a feature is tested again; the variable versions and ForAllGuarded with shared nodes; the variable versions with stray nodes."
  },
  {
   "property": "C56",
   "status": "proved",
   "theorems": [
    "C56_protocol",
    "C56_combinators",
    "C56_optimal",
    "C56_binary_solver",
    "C56_binary_as_said",
    "C56_outside"
   ],
   "note": "The methods are functions on an arbitrary type of worlds; the formula and order constructors are functions. Errors of an Encodable from outside that wrap UnsatError are left out."
  },
  {
   "property": "C57",
   "status": "proved",
   "theorems": [
    "C57_iterator",
    "C57_leafs"
   ],
   "note": ""
  },
  {
   "property": "C58",
   "status": "proved",
   "theorems": [
    "C37_endings",
    "C37_allcomp_endings"
   ],
   "note": "For AllComp of a constant, which stops at the first leaf of the other class, necessary conditions for an error and a panic and a sufficient one for a CNF."
  },
  {
   "property": "C59",
   "status": "proved",
   "theorems": [
    "C59_any_manager",
    "C59_same_models",
    "C59_refused_update_refuted"
   ],
   "note": "The third theorem shows that raising TopV must take effect: the interface lets UpdateTopV return false, and no caller looks at the result."
  },
  {
   "property": "C60",
   "status": "proved",
   "theorems": [
    "C60_history",
    "C60_same_models"
   ],
   "note": "C34_refuted is the case that the condition on declared variables excludes."
  },
  {
   "property": "C61",
   "status": "proved",
   "theorems": [
    "C61_cnf",
    "C61_query",
    "C61_negative_dim"
   ],
   "note": "ToFile is in C65. The semantics GoLang.v is trusted; for the translator tools/go2coq.py see C68."
  },
  {
   "property": "C62",
   "status": "proved",
   "theorems": [
    "C62_sat",
    "C62_unsat",
    "C62_failed",
    "C62_combinator",
    "C62_optimum",
    "C62_no_file_refuted"
   ],
   "note": "No assumption on the solver. For ComputeOptim its own temporary file is assumed to be created; the last theorem shows that without it there is no error, though there may be an optimum."
  },
  {
   "property": "C63",
   "status": "proved",
   "theorems": [
    "C63_query",
    "C63_nil_context",
    "C63_contexts",
    "C63_helpers"
   ],
   "note": "The semantics GoLang.v is trusted (for the translator tools/go2coq.py see C68); slices are values there (C35, C51). The condition on the context holds in new contexts and is kept by every encoding (C63_contexts)."
  },
  {
   "property": "C64",
   "status": "proved",
   "theorems": [
    "C64_truth",
    "C64_first_order",
    "C64_no_panic"
   ],
   "note": "Stated about the interpreted text alone; the semantics GoLang.v is trusted; for the translator tools/go2coq.py see C68."
  },
  {
   "property": "C65",
   "status": "proved",
   "theorems": [
    "C65_ToFile",
    "C65_Values",
    "C65_BinSolver",
    "C65_Step",
    "C65_Sat",
    "C65_ComputeOptim",
    "C65_optim_ends"
   ],
   "note": "The semantics GoLang.v, with its operating system, is trusted; for the translator tools/go2coq.py see C68. After a panic nothing is said about memory and files."
  },
  {
   "property": "C66",
   "status": "proved",
   "theorems": [
    "C66_sat",
    "C66_optimum",
    "C66_minimal_reason"
   ],
   "note": "The main function is the definition text_sat or text_optim: three calls of the text. C66_sat assumes the variable numbers fit into an int, C66_minimal_reason a size of the tree for which they do."
  },
  {
   "property": "C67",
   "status": "proved",
   "theorems": [
    "C67_computation",
    "C67_evaluation",
    "C67_computation_text",
    "C67_evaluation_text"
   ],
   "note": "The semantics GoLang.v, with its operating system and printing, is trusted; for the translator tools/go2coq.py see C68. When the library itself panics or runs on, nothing is said about what was printed; with a correct solver that does not happen."
  },
  {
   "property": "C68",
   "status": "proved",
   "theorems": [
    "C68_translation",
    "C68_names",
    "C68_truth",
    "C68_sat",
    "C68_optimum",
    "C68_examples"
   ],
   "note": "Trusted: that GoText.v has the bytes of the files (tools/gotext.py prints them), that the reader GoParse.v and GoElab.v and the semantics GoLang.v are those of Go. The translator tools/go2coq.py is not trusted for these theorems."
  },
  {
   "property": "C69",
   "status": "proved",
   "theorems": [
    "C69_formulas",
    "C69_panics",
    "C69_twice",
    "C69_no_file",
    "C69_values",
    "C69_scopes"
   ],
   "note": "Existence theorems about the bytes; trusted as for C68."
  },
  {
   "property": "C70",
   "status": "proved",
   "theorems": [
    "C70_any_scoper",
    "C70_map_order",
    "C70_text_order",
    "C70_frames"
   ],
   "note": "Scopers that answer alike: the relation is kept by every method and gives equal answers. For the text the semantics GoLang.v is trusted."
  },
  {
   "property": "C71",
   "status": "proved",
   "theorems": [
    "C71_stores",
    "C71_paths",
    "C71_runs",
    "C71_arrays",
    "C71_appends"
   ],
   "note": "About the program read from the bytes (C68); uses and writes are read off the text, paths follow the control flow of GoLang.v whatever the values. C71_arrays uses a small memory in which an event may do whatever Go allows (new array, in place, or a larger array)."
  }
 ]
}