(* Generated by tools/go2coq.py from the Go sources; do not edit. *)
From Verif Require Import GoBase Cnf GoLang.
Local Open Scope string_scope.
Local Open Scope Z_scope.
Local Open Scope list_scope.

(* cnf/cnf.go:50-54 *)
Definition src_cnf_FromClauses : func :=
  mkFunc ["clauses"] [] false
  [
    SAssign [LNew "ncnf"] [XStc "cnf.CNF" [("tv", XInt 0); ("sClauses", XVar "clauses");
        ("cClauses", XLst [])]];
    SAssign [LSel (LVar "ncnf") "tv"] [XCall "cnf.maxVar" [XVar "clauses"]];
    SReturn [XVar "ncnf"]
  ].

(* cnf/cnf.go:58-60 *)
Definition src_cnf_CNF_TopV : func :=
  mkFunc ["c"] [] false
  [
    SReturn [XSel (XVar "c") "tv"]
  ].

(* cnf/cnf.go:66-101 *)
Definition src_cnf_CNF_Negate : func :=
  mkFunc ["c"; "opt_topv"] [] false
  [
    SAssign [LNew "rcnf"] [XStc "cnf.CNF" [("tv", XInt 0); ("sClauses", XLst []);
        ("cClauses", XLst [])]];
    SAssign [LNew "topv"] [XSel (XVar "c") "tv"];
    SIf [] (XBin OGt (XLen (XVar "opt_topv")) (XInt 0)) [
      SAssign [LVar "topv"] [XCall "cnf.maxInt" [XVar "topv"; XIdx (XVar "opt_topv") (XInt
          0)]]
    ] [];
    SIf [] (XBin OEq (XLen (XSel (XVar "c") "sClauses")) (XInt 0)) [
      SAssign [LVar "rcnf"] [XMeth (XVar "c") "AppendSemantics" [XLst [XLst []]]];
      SAssign [LSel (LVar "rcnf") "tv"] [XVar "topv"];
      SReturn [XVar "rcnf"]
    ] [];
    SIf [] (XMeth (XVar "c") "hasEmptySemanticClause" []) [
      SAssign [LVar "rcnf"] [XStc "cnf.CNF" [("tv", XInt 0); ("sClauses", XLst []);
          ("cClauses", XSel (XVar "c") "cClauses")]];
      SAssign [LSel (LVar "rcnf") "tv"] [XVar "topv"];
      SReturn [XVar "rcnf"]
    ] [];
    SAssign [LVar "rcnf"] [XStc "cnf.CNF" [("tv", XVar "topv"); ("sClauses", XSel (XVar
        "c") "sClauses"); ("cClauses", XSel (XVar "c") "cClauses")]];
    SExpr (XMeth (XVar "rcnf") "tseytinNegation" [XVar "topv"]);
    SReturn [XVar "rcnf"]
  ].

(* cnf/cnf.go:105-146 *)
Definition src_cnf_CNF_tseytinNegation : func :=
  mkFunc ["c"; "tv"] [] true
  [
    SAssign [LNew "clauses"] [XLst []];
    SAssign [LNew "enclits"] [XLst []];
    SRange "_" "clause" (XSel (XVar "c") "sClauses") [
      SIf [] (XBin OEq (XLen (XVar "clause")) (XInt 0)) [
        SAssign [LSel (LVar "c") "sClauses"] [XLst []];
        SAssign [LSel (LVar "c") "tv"] [XVar "tv"];
        SReturn []
      ] [];
      SAssign [LNew "auxv"] [XNeg (XIdx (XVar "clause") (XInt 0))];
      SIf [] (XBin OGt (XLen (XVar "clause")) (XInt 1)) [
        SAssign [LVar "tv"] [XBin OAdd (XVar "tv") (XInt 1)];
        SAssign [LVar "auxv"] [XVar "tv"];
        SRange "_" "lit" (XVar "clause") [
          SAssign [LVar "clauses"] [XApp (XVar "clauses") [XLst [XNeg (XVar "lit"); XNeg
              (XVar "auxv")]]]
        ];
        SAssign [LVar "clauses"] [XApp (XVar "clauses") [XApp (XVar "clause") [XVar
            "auxv"]]]
      ] [];
      SAssign [LVar "enclits"] [XApp (XVar "enclits") [XVar "auxv"]]
    ];
    SAssign [LSel (LVar "c") "cClauses"] [XAppS (XSel (XVar "c") "cClauses") (XVar
        "clauses")];
    SAssign [LSel (LVar "c") "tv"] [XVar "tv"];
    SIf [] (XBin OEq (XLen (XVar "enclits")) (XInt 1)) [
      SAssign [LSel (LVar "c") "sClauses"] [XLst [XVar "enclits"]];
      SReturn []
    ] [];
    SExpr (XMeth (XVar "c") "addNegationIFFClauses" [XVar "enclits"])
  ].

(* cnf/cnf.go:150-160 *)
Definition src_cnf_CNF_addNegationIFFClauses : func :=
  mkFunc ["c"; "enclits"] [] true
  [
    SAssign [LSel (LVar "c") "tv"] [XBin OAdd (XSel (XVar "c") "tv") (XInt 1)];
    SAssign [LNew "auxv"] [XSel (XVar "c") "tv"];
    SRange "_" "lit" (XVar "enclits") [
      SAssign [LSel (LVar "c") "cClauses"] [XApp (XSel (XVar "c") "cClauses") [XLst [XNeg
          (XVar "lit"); XVar "auxv"]]]
    ];
    SAssign [LSel (LVar "c") "cClauses"] [XApp (XSel (XVar "c") "cClauses") [XApp (XVar
        "enclits") [XNeg (XVar "auxv")]]];
    SAssign [LSel (LVar "c") "sClauses"] [XLst [XLst [XVar "auxv"]]]
  ].

(* cnf/cnf.go:164-169 *)
Definition src_cnf_CNF_Conjunction : func :=
  mkFunc ["c"; "oc"] [] false
  [
    SAssign [LNew "rcnf"] [XMeth (XVar "c") "AppendSemantics" [XSel (XVar "oc")
        "sClauses"]];
    SAssign [LSel (LVar "rcnf") "cClauses"] [XSel (XVar "c") "cClauses"];
    SAssign [LVar "rcnf"] [XMeth (XVar "rcnf") "AppendConsistency" [XSel (XVar "oc")
        "cClauses"]];
    SReturn [XVar "rcnf"]
  ].

(* cnf/cnf.go:172-179 *)
Definition src_cnf_CNF_AppendSemantics : func :=
  mkFunc ["c"; "clauses"] [] false
  [
    SAssign [LNew "topv"] [XCall "cnf.maxInt" [XSel (XVar "c") "tv"; XCall "cnf.maxVar"
        [XVar "clauses"]]];
    SReturn [XStc "cnf.CNF" [("tv", XVar "topv"); ("sClauses", XAppS (XSel (XVar "c")
        "sClauses") (XVar "clauses")); ("cClauses", XSel (XVar "c") "cClauses")]]
  ].

(* cnf/cnf.go:182-189 *)
Definition src_cnf_CNF_AppendConsistency : func :=
  mkFunc ["c"; "clauses"] [] false
  [
    SAssign [LNew "topv"] [XCall "cnf.maxInt" [XSel (XVar "c") "tv"; XCall "cnf.maxVar"
        [XVar "clauses"]]];
    SReturn [XStc "cnf.CNF" [("tv", XVar "topv"); ("sClauses", XSel (XVar "c")
        "sClauses"); ("cClauses", XAppS (XSel (XVar "c") "cClauses") (XVar "clauses"))]]
  ].

(* cnf/cnf.go:192-208 *)
Definition src_cnf_CNF_ToBytes : func :=
  mkFunc ["c"] [] false
  [
    SAssign [LNew "bString"] [XPrim "fmt.Sprintf" [XStr ("p cnf %d %d" ++ newline); XSel
        (XVar "c") "tv"; XBin OAdd (XLen (XSel (XVar "c") "sClauses")) (XLen (XSel (XVar
        "c") "cClauses"))]];
    SRange "_" "clause" (XSel (XVar "c") "sClauses") [
      SAssign [LVar "bString"] [XBin OAdd (XVar "bString") (XPrim "fmt.Sprintf" [XStr
          ("%s" ++ newline); XCall "cnf.clauseToDIMACS" [XVar "clause"]])]
    ];
    SRange "_" "clause" (XSel (XVar "c") "cClauses") [
      SAssign [LVar "bString"] [XBin OAdd (XVar "bString") (XPrim "fmt.Sprintf" [XStr
          ("%s" ++ newline); XCall "cnf.clauseToDIMACS" [XVar "clause"]])]
    ];
    SReturn [XVar "bString"]
  ].

(* cnf/cnf.go:211-243 *)
Definition src_cnf_CNF_ToFile : func :=
  mkFunc ["c"; "path"] [] false
  [
    SAssign [LNew "f"; LNew "err"] [XSys "os.Create" [XVar "path"]];
    SIf [] (XBin ONe (XVar "err") (XNil)) [
      SReturn [XVar "err"]
    ] [];
    SDefer [SExpr (XMeth (XVar "f") "Close" [])];
    SIf [SAssign [LBlank; LVar "err"] [XMeth (XVar "f") "WriteString" [XPrim "fmt.Sprintf"
        [XStr ("p cnf %d %d" ++ newline); XSel (XVar "c") "tv"; XBin OAdd (XLen (XSel
        (XVar "c") "sClauses")) (XLen (XSel (XVar "c") "cClauses"))]]]] (XBin ONe (XVar
        "err") (XNil)) [
      SReturn [XVar "err"]
    ] [];
    SRange "_" "clause" (XSel (XVar "c") "sClauses") [
      SIf [SAssign [LBlank; LVar "err"] [XMeth (XVar "f") "WriteString" [XPrim
          "fmt.Sprintf" [XStr ("%s" ++ newline); XCall "cnf.clauseToDIMACS" [XVar
          "clause"]]]]] (XBin ONe (XVar "err") (XNil)) [
        SReturn [XVar "err"]
      ] []
    ];
    SRange "_" "clause" (XSel (XVar "c") "cClauses") [
      SIf [SAssign [LBlank; LVar "err"] [XMeth (XVar "f") "WriteString" [XPrim
          "fmt.Sprintf" [XStr ("%s" ++ newline); XCall "cnf.clauseToDIMACS" [XVar
          "clause"]]]]] (XBin ONe (XVar "err") (XNil)) [
        SReturn [XVar "err"]
      ] []
    ];
    SReturn [XNil]
  ].

(* cnf/cnf.go:246-248 *)
Definition src_cnf_CNF_Clauses : func :=
  mkFunc ["c"] [] false
  [
    SReturn [XSel (XVar "c") "sClauses"; XSel (XVar "c") "cClauses"]
  ].

(* cnf/cnf.go:252-254 *)
Definition src_cnf_CNF_TriviallyTrue : func :=
  mkFunc ["c"] [] false
  [
    SReturn [XBin OAnd (XBin OEq (XLen (XSel (XVar "c") "sClauses")) (XInt 0)) (XBin OEq
        (XLen (XSel (XVar "c") "cClauses")) (XInt 0))]
  ].

(* cnf/cnf.go:258-270 *)
Definition src_cnf_CNF_TriviallyFalse : func :=
  mkFunc ["c"] [] false
  [
    SRange "_" "cl" (XSel (XVar "c") "sClauses") [
      SIf [] (XBin OEq (XLen (XVar "cl")) (XInt 0)) [
        SReturn [XBool true]
      ] []
    ];
    SRange "_" "cl" (XSel (XVar "c") "cClauses") [
      SIf [] (XBin OEq (XLen (XVar "cl")) (XInt 0)) [
        SReturn [XBool true]
      ] []
    ];
    SReturn [XBool false]
  ].

(* cnf/cnf.go:272-279 *)
Definition src_cnf_CNF_hasEmptySemanticClause : func :=
  mkFunc ["c"] [] false
  [
    SRange "_" "cl" (XSel (XVar "c") "sClauses") [
      SIf [] (XBin OEq (XLen (XVar "cl")) (XInt 0)) [
        SReturn [XBool true]
      ] []
    ];
    SReturn [XBool false]
  ].

(* cnf/cnf.go:282-291 *)
Definition src_cnf_clauseToDIMACS : func :=
  mkFunc ["clause"] [] false
  [
    SAssign [LNew "cString"] [XStr ""];
    SRange "_" "v" (XVar "clause") [
      SAssign [LVar "cString"] [XBin OAdd (XVar "cString") (XBin OAdd (XPrim
          "strconv.Itoa" [XVar "v"]) (XStr " "))]
    ];
    SAssign [LVar "cString"] [XBin OAdd (XVar "cString") (XStr "0")];
    SReturn [XVar "cString"]
  ].

(* cnf/cnf.go:295-306 *)
Definition src_cnf_maxVar : func :=
  mkFunc ["clauses"] [] false
  [
    SAssign [LNew "topv"] [XInt 0];
    SRange "_" "cl" (XVar "clauses") [
      SRange "_" "v" (XVar "cl") [
        SAssign [LNew "absV"] [XCall "cnf.absInt" [XVar "v"]];
        SIf [] (XBin OGt (XVar "absV") (XVar "topv")) [
          SAssign [LVar "topv"] [XVar "absV"]
        ] []
      ]
    ];
    SReturn [XVar "topv"]
  ].

(* cnf/cnf.go:309-314 *)
Definition src_cnf_absInt : func :=
  mkFunc ["v"] [] false
  [
    SIf [] (XBin OGt (XVar "v") (XInt 0)) [
      SReturn [XVar "v"]
    ] [];
    SReturn [XNeg (XVar "v")]
  ].

(* cnf/cnf.go:317-322 *)
Definition src_cnf_maxInt : func :=
  mkFunc ["v1"; "v2"] [] false
  [
    SIf [] (XBin OGt (XVar "v1") (XVar "v2")) [
      SReturn [XVar "v1"]
    ] [];
    SReturn [XVar "v2"]
  ].

(* compute/boolcomb.go:20-33 *)
Definition src_compute_AndCombinator_Sat : func :=
  mkFunc ["ac"; "ctx"; "solver"] [] false
  [
    SRange "_" "elem" (XVar "ac") [
      SAssign [LNew "sat"; LNew "err"] [XMeth (XVar "elem") "Sat" [XVar "ctx"; XVar
          "solver"]];
      SIf [] (XBin ONe (XVar "err") (XNil)) [
        SReturn [XBool false; XVar "err"]
      ] [];
      SIf [] (XNot (XVar "sat")) [
        SReturn [XBool false; XNil]
      ] []
    ];
    SReturn [XBool true; XNil]
  ].

(* compute/boolcomb.go:38-51 *)
Definition src_compute_OrCombinator_Sat : func :=
  mkFunc ["oc"; "ctx"; "solver"] [] false
  [
    SRange "_" "elem" (XVar "oc") [
      SAssign [LNew "sat"; LNew "err"] [XMeth (XVar "elem") "Sat" [XVar "ctx"; XVar
          "solver"]];
      SIf [] (XBin ONe (XVar "err") (XNil)) [
        SReturn [XBool false; XVar "err"]
      ] [];
      SIf [] (XVar "sat") [
        SReturn [XBool true; XNil]
      ] []
    ];
    SReturn [XBool false; XNil]
  ].

(* compute/boolcomb.go:65-79 *)
Definition src_compute_QDTFAtom_Sat : func :=
  mkFunc ["a"; "ctx"; "solver"] [] false
  [
    SAssign [LNew "err"] [XMeth (XVar "solver") "Step" [XSel (XVar "a") "Query"; XVar
        "ctx"]];
    SIf [] (XBin ONe (XVar "err") (XNil)) [
      SIf [] (XPrim "errors.Is" [XVar "err"; XGlob "compute.UnsatError"]) [
        SReturn [XSel (XVar "a") "Negated"; XNil]
      ] [];
      SReturn [XBool false; XVar "err"]
    ] [];
    SReturn [XNot (XSel (XVar "a") "Negated"); XNil]
  ].

(* compute/optimum.go:39-96 *)
Definition src_compute_ComputeOptim : func :=
  mkFunc ["fg"; "og"; "v"; "ctx"; "solver"] [] false
  [
    SAssign [LNew "bm"] [XLst []];
    SAssign [LNew "tmpfp"; LNew "err"] [XSys "os.CreateTemp" [XStr ""; XStr "tmp.cnf"]];
    SIf [] (XBin ONe (XVar "err") (XNil)) [
      SReturn [XStc "compute.OptOutput" [("Found", XBool false); ("Value", XStc
          "query.QConst" [("ID", XStr ""); ("Val", XLst [])]); ("Calls", XInt 0)]; XNil]
    ] [];
    SDefer [
      SExpr (XMeth (XVar "tmpfp") "Close" []);
      SExpr (XSys "os.Remove" [XMeth (XVar "tmpfp") "Name" []])
    ];
    SIf [SAssign [LVar "err"] [XMeth (XVar "solver") "Step" [XStc "logop.WithVar" [("I",
        XVar "v"); ("Q", XDyn (XVar "fg") [XVar "v"])]; XVar "ctx"]]] (XBin ONe (XVar
        "err") (XNil)) [
      SIf [] (XPrim "errors.Is" [XVar "err"; XGlob "compute.UnsatError"]) [
        SReturn [XStc "compute.OptOutput" [("Found", XBool false); ("Value", XStc
            "query.QConst" [("ID", XStr ""); ("Val", XLst [])]); ("Calls", XInt 1)]; XNil]
      ] [];
      SReturn [XStc "compute.OptOutput" [("Found", XBool false); ("Value", XStc
          "query.QConst" [("ID", XStr ""); ("Val", XLst [])]); ("Calls", XInt 0)]; XVar
          "err"]
    ] [];
    SAssign [LNew "steps"] [XInt 1];
    SFor [] (XBool true) [] [
      SAssign [LVar "steps"] [XBin OAdd (XVar "steps") (XInt 1)];
      SAssign [LVar "bm"; LVar "err"] [XMeth (XVar "solver") "Values" [XLst [XVar "v"];
          XVar "ctx"]];
      SIf [] (XBin ONe (XVar "err") (XNil)) [
        SReturn [XStc "compute.OptOutput" [("Found", XBool false); ("Value", XStc
            "query.QConst" [("ID", XStr ""); ("Val", XLst [])]); ("Calls", XInt 0)]; XVar
            "err"]
      ] [];
      SExpr (XMeth (XVar "ctx") "Reset" []);
      SAssign [LVar "err"] [XMeth (XVar "solver") "Step" [XStc "logop.WithVar" [("I", XVar
          "v"); ("Q", XStc "logop.And" [("Q1", XDyn (XVar "fg") [XVar "v"]); ("Q2", XDyn
          (XVar "og") [XVar "v"; XIdx (XVar "bm") (XInt 0)])])]; XVar "ctx"]];
      SIf [] (XBin ONe (XVar "err") (XNil)) [
        SIf [] (XPrim "errors.Is" [XVar "err"; XGlob "compute.UnsatError"]) [
          SBreak
        ] [];
        SReturn [XStc "compute.OptOutput" [("Found", XBool false); ("Value", XStc
            "query.QConst" [("ID", XStr ""); ("Val", XLst [])]); ("Calls", XInt 0)]; XVar
            "err"]
      ] []
    ];
    SReturn [XStc "compute.OptOutput" [("Found", XBool true); ("Value", XIdx (XVar "bm")
        (XInt 0)); ("Calls", XVar "steps")]; XNil]
  ].

(* compute/solver.go:46-54 *)
Definition src_compute_BinSolver : func :=
  mkFunc ["solverPath"] [] false
  [
    SIf [SAssign [LBlank; LNew "err"] [XSys "os.Stat" [XVar "solverPath"]]] (XBin ONe
        (XVar "err") (XNil)) [
      SReturn [XNil; XVar "err"]
    ] [];
    SReturn [XNew (XStc "compute.binSolver" [("output", XStr ""); ("solverPath", XVar
        "solverPath")]); XNil]
  ].

(* compute/solver.go:56-92 *)
Definition src_compute_binSolver_Step : func :=
  mkFunc ["s"; "q"; "ctx"] [] true
  [
    SAssign [LNew "encFile"; LNew "err"] [XSys "os.CreateTemp" [XStr ""; XStr "tmp.cnf"]];
    SIf [] (XBin ONe (XVar "err") (XNil)) [
      SReturn [XVar "err"]
    ] [];
    SDefer [
      SExpr (XMeth (XVar "encFile") "Close" []);
      SExpr (XSys "os.Remove" [XMeth (XVar "encFile") "Name" []])
    ];
    SAssign [LNew "cnf"; LVar "err"] [XMeth (XVar "q") "Encoding" [XVar "ctx"]];
    SIf [] (XBin ONe (XVar "err") (XNil)) [
      SReturn [XVar "err"]
    ] [];
    SIf [SAssign [LVar "err"] [XMeth (XVar "cnf") "ToFile" [XMeth (XVar "encFile") "Name"
        []]]] (XBin ONe (XVar "err") (XNil)) [
      SReturn [XVar "err"]
    ] [];
    SAssign [LNew "cmd"] [XSys "exec.Command" [XSel (XVar "s") "solverPath"; XMeth (XVar
        "encFile") "Name" []]];
    SAssign [LNew "code"; LNew "output"; LVar "err"] [XCall "compute.runSolver" [XVar
        "cmd"]];
    SIf [] (XBin ONe (XVar "err") (XNil)) [
      SReturn [XVar "err"]
    ] [];
    SIf [] (XBin OEq (XVar "code") (XInt 20)) [
      SReturn [XGlob "compute.UnsatError"]
    ] [];
    SAssign [LSel (LVar "s") "output"] [XVar "output"];
    SReturn [XNil]
  ].

(* compute/solver.go:96-118 *)
Definition src_compute_runSolver : func :=
  mkFunc ["cmd"] [] false
  [
    SAssign [LNew "stderr"; LNew "stdout"] [XNew (XStc "bytes.Buffer" [("buf", XStr "")]);
        XNew (XStc "bytes.Buffer" [("buf", XStr "")])];
    SAssign [LSel (LVar "cmd") "Stderr"] [XVar "stderr"];
    SAssign [LSel (LVar "cmd") "Stdout"] [XVar "stdout"];
    SAssign [LNew "err"] [XMeth (XVar "cmd") "Run" []];
    SIf [SAssign [LNew "exitErr"; LNew "ok"] [XIs (XVar "err") "exec.ExitError"]] (XVar
        "ok") [
      SAssign [LNew "exitCode"] [XMeth (XVar "exitErr") "ExitCode" []];
      SIf [] (XBin OAnd (XBin ONe (XVar "exitCode") (XInt 10)) (XBin ONe (XVar "exitCode")
          (XInt 20))) [
        SReturn [XVar "exitCode"; XStr ""; XPrim "errors.New" [XMeth (XDeref (XVar
            "stderr")) "String" []]]
      ] [];
      SReturn [XMeth (XVar "exitErr") "ExitCode" []; XMeth (XDeref (XVar "stdout"))
          "Bytes" []; XNil]
    ] [
      SIf [] (XBin ONe (XVar "err") (XNil)) [
        SReturn [XInt 0; XStr ""; XVar "err"]
      ] []
    ];
    SReturn [XInt 0; XStr ""; XPrim "errors.New" [XStr
        "Solver exit code could not be recovered"]]
  ].

(* compute/solver.go:120-135 *)
Definition src_compute_binSolver_Values : func :=
  mkFunc ["s"; "vars"; "ctx"] [] true
  [
    SAssign [LNew "out"] [XMake (XStc "query.QConst" [("ID", XStr ""); ("Val", XLst [])])
        (XLen (XVar "vars"))];
    SRange "i" "v" (XVar "vars") [
      SAssign [LNew "c"; LNew "err"] [XCall "compute.varValueFromBytes" [XSel (XVar "s")
          "output"; XVar "v"; XVar "ctx"]];
      SIf [] (XBin ONe (XVar "err") (XNil)) [
        SReturn [XLst []; XVar "err"]
      ] [];
      SAssign [LIdx (LVar "out") (XVar "i")] [XVar "c"]
    ];
    SReturn [XVar "out"; XNil]
  ].

(* compute/solver.go:139-180 *)
Definition src_compute_varValueFromBytes : func :=
  mkFunc ["out"; "v"; "ctx"] [] false
  [
    SAssign [LNew "c"] [XStc "query.QConst" [("ID", XStr ""); ("Val", XLst [])]];
    SAssign [LNew "vval"] [XMap];
    SAssign [LNew "vfilter"] [XCall "compute.variableFilter" [XVar "v"; XVar "ctx"]];
    SRange "_" "line" (XPrim "bytes.Split" [XVar "out"; XStr (newline)]) [
      SIf [] (XBin OOr (XBin OEq (XLen (XVar "line")) (XInt 0)) (XBin ONe (XIdx (XVar
          "line") (XInt 0)) (XInt 118))) [
        SContinue
      ] [];
      SRange "_" "vb" (XPrim "bytes.Split" [XSlc (XVar "line") (Some (XInt 2)) None; XStr
          " "]) [
        SAssign [LNew "val"; LNew "err"] [XPrim "strconv.Atoi" [XVar "vb"]];
        SIf [] (XBin ONe (XVar "err") (XNil)) [
          SReturn [XStc "query.QConst" [("ID", XStr ""); ("Val", XLst [])]; XVar "err"]
        ] [];
        SAssign [LNew "absVal"] [XCall "compute.iAbs" [XVar "val"]];
        SIf [] (XIdxZ (XVar "vfilter") (XVar "absVal") (XBool false)) [
          SAssign [LIdx (LVar "vval") (XVar "absVal")] [XBin OGt (XVar "val") (XInt 0)]
        ] []
      ]
    ];
    SFor [SAssign [LNew "i"] [XInt 0]] (XBin OLt (XVar "i") (XMeth (XVar "ctx") "Dim" []))
        [SAssign [LVar "i"] [XBin OAdd (XVar "i") (XInt 1)]] [
      SIf [] (XIdxZ (XVar "vval") (XMeth (XVar "ctx") "CNFVar" [XVar "v"; XVar "i"; XInt
          0]) (XBool false)) [
        SAssign [LSel (LVar "c") "Val"] [XApp (XSel (XVar "c") "Val") [XInt 0]];
        SContinue
      ] [];
      SIf [] (XIdxZ (XVar "vval") (XMeth (XVar "ctx") "CNFVar" [XVar "v"; XVar "i"; XInt
          2]) (XBool false)) [
        SAssign [LSel (LVar "c") "Val"] [XApp (XSel (XVar "c") "Val") [XInt 2]];
        SContinue
      ] [];
      SIf [] (XIdxZ (XVar "vval") (XMeth (XVar "ctx") "CNFVar" [XVar "v"; XVar "i"; XInt
          1]) (XBool false)) [
        SAssign [LSel (LVar "c") "Val"] [XApp (XSel (XVar "c") "Val") [XInt 1]];
        SContinue
      ] []
    ];
    SReturn [XVar "c"; XNil]
  ].

(* compute/solver.go:183-193 *)
Definition src_compute_variableFilter : func :=
  mkFunc ["v"; "ctx"] [] false
  [
    SAssign [LNew "f"] [XMap];
    SFor [SAssign [LNew "i"] [XInt 0]] (XBin OLt (XVar "i") (XMeth (XVar "ctx") "Dim" []))
        [SAssign [LVar "i"] [XBin OAdd (XVar "i") (XInt 1)]] [
      SAssign [LIdx (LVar "f") (XMeth (XVar "ctx") "CNFVar" [XVar "v"; XVar "i"; XInt 0])]
          [XBool true];
      SAssign [LIdx (LVar "f") (XMeth (XVar "ctx") "CNFVar" [XVar "v"; XVar "i"; XInt 1])]
          [XBool true];
      SAssign [LIdx (LVar "f") (XMeth (XVar "ctx") "CNFVar" [XVar "v"; XVar "i"; XInt 2])]
          [XBool true]
    ];
    SReturn [XVar "f"]
  ].

(* compute/solver.go:196-201 *)
Definition src_compute_iAbs : func :=
  mkFunc ["v"] [] false
  [
    SIf [] (XBin OGt (XVar "v") (XInt 0)) [
      SReturn [XVar "v"]
    ] [];
    SReturn [XNeg (XVar "v")]
  ].

(* query/context.go:24-30 *)
Definition src_query_BasicQContext : func :=
  mkFunc ["model"] [] false
  [
    SReturn [XNew (XStc "query.baseQContext" [("baseScoper", XStc "query.baseScoper"
        [("builder", XStc "strings.Builder" [("buf", XStr "")]); ("scopes", XLst []);
        ("vars", XMap)]); ("baseVarManager", XStc "query.baseVarManager" [("topv", XInt
        0); ("vars", XMap)]); ("Model", XVar "model")])]
  ].

(* query/context.go:33-39 *)
Definition src_query_baseQContext_Reset : func :=
  mkFunc ["qc"] [] true
  [
    SIf [] (XBin OEq (XVar "qc") (XNil)) [
      SReturn []
    ] [];
    SExpr (XMeth (XSel (XVar "qc") "baseScoper") "Reset" []);
    SExpr (XMeth (XSel (XVar "qc") "baseVarManager") "Reset" [])
  ].

(* query/instances.go:32-40 *)
Definition src_query_AllBotConst : func :=
  mkFunc ["dim"] [] false
  [
    SAssign [LNew "feats"] [XMake (XInt 0) (XVar "dim")];
    SFor [SAssign [LNew "i"] [XInt 0]] (XBin OLt (XVar "i") (XVar "dim")) [SAssign [LVar
        "i"] [XBin OAdd (XVar "i") (XInt 1)]] [
      SAssign [LIdx (LVar "feats") (XInt 0)] [XInt 0]
    ];
    SReturn [XStc "query.QConst" [("ID", XStr ""); ("Val", XVar "feats")]]
  ].

(* query/instances.go:43-50 *)
Definition src_query_QConst_IsFull : func :=
  mkFunc ["c"] [] false
  [
    SRange "_" "ft" (XSel (XVar "c") "Val") [
      SIf [] (XBin OEq (XVar "ft") (XInt 0)) [
        SReturn [XBool false]
      ] []
    ];
    SReturn [XBool true]
  ].

(* query/instances.go:53-66 *)
Definition src_query_QConst_AsString : func :=
  mkFunc ["c"] [] false
  [
    SAssign [LNew "sb"] [XStc "strings.Builder" [("buf", XStr "")]];
    SRange "_" "ft" (XSel (XVar "c") "Val") [
      SIf [] (XBin OEq (XVar "ft") (XInt 0)) [
        SExpr (XMeth (XVar "sb") "WriteRune" [XInt 95])
      ] [
        SIf [] (XBin OEq (XVar "ft") (XInt 1)) [
          SExpr (XMeth (XVar "sb") "WriteRune" [XInt 48])
        ] [
          SIf [] (XBin OEq (XVar "ft") (XInt 2)) [
            SExpr (XMeth (XVar "sb") "WriteRune" [XInt 49])
          ] []
        ]
      ]
    ];
    SReturn [XMeth (XVar "sb") "String" []]
  ].

(* query/instances.go:69-77 *)
Definition src_query_QConst_BotCount : func :=
  mkFunc ["c"] [] false
  [
    SAssign [LNew "count"] [XInt 0];
    SRange "_" "ft" (XSel (XVar "c") "Val") [
      SIf [] (XBin OEq (XVar "ft") (XInt 0)) [
        SAssign [LVar "count"] [XBin OAdd (XVar "count") (XInt 1)]
      ] []
    ];
    SReturn [XVar "count"]
  ].

(* query/instances.go:80-92 *)
Definition src_query_QConst_EqualValue : func :=
  mkFunc ["c"; "t"] [] false
  [
    SIf [] (XBin ONe (XLen (XSel (XVar "c") "Val")) (XLen (XSel (XVar "t") "Val"))) [
      SReturn [XBool false]
    ] [];
    SRange "i" "v" (XSel (XVar "c") "Val") [
      SIf [] (XBin ONe (XVar "v") (XIdx (XSel (XVar "t") "Val") (XVar "i"))) [
        SReturn [XBool false]
      ] []
    ];
    SReturn [XBool true]
  ].

(* query/instances.go:96-111 *)
Definition src_query_ValidateConstsDim : func :=
  mkFunc ["d"; "consts"] [] false
  [
    SRange "i" "c" (XVar "consts") [
      SIf [] (XBin ONe (XLen (XSel (XVar "c") "Val")) (XVar "d")) [
        SReturn [XPrim "fmt.Errorf" [XStr
            "constant%d: wrong dim %d (%d feats in context)"; XBin OAdd (XVar "i") (XInt
            1); XLen (XSel (XVar "c") "Val"); XVar "d"]]
      ] []
    ];
    SReturn [XNil]
  ].

(* query/model.go:35-37 *)
Definition src_query_Node_IsLeaf : func :=
  mkFunc ["n"] [] false
  [
    SReturn [XBin OOr (XBin OLt (XSel (XVar "n") "ZChild") (XInt 0)) (XBin OLt (XSel (XVar
        "n") "OChild") (XInt 0))]
  ].

(* query/scoper.go:48-67 *)
Definition src_query_baseScoper_ScopeVar : func :=
  mkFunc ["s"; "v"] [] true
  [
    SIf [] (XBin OEq (XLen (XSel (XVar "s") "scopes")) (XInt 0)) [
      SReturn [XVar "v"]
    ] [];
    SDefer [
      SExpr (XMeth (XSel (XVar "s") "builder") "Reset" [])
    ];
    SExpr (XMeth (XSel (XVar "s") "builder") "WriteString" [XVar "v"]);
    SFor [SAssign [LNew "i"] [XInt 0]] (XBin OLt (XVar "i") (XIdx (XSel (XVar "s") "vars")
        (XVar "v"))) [SAssign [LVar "i"] [XBin OAdd (XVar "i") (XInt 1)]] [
      SExpr (XMeth (XSel (XVar "s") "builder") "WriteRune" [XInt 31]);
      SExpr (XMeth (XSel (XVar "s") "builder") "WriteString" [XSel (XIdx (XSel (XVar "s")
          "scopes") (XVar "i")) "target"]);
      SExpr (XMeth (XSel (XVar "s") "builder") "WriteRune" [XInt 31]);
      SExpr (XMeth (XSel (XVar "s") "builder") "WriteString" [XPrim "strconv.Itoa" [XSel
          (XIdx (XSel (XVar "s") "scopes") (XVar "i")) "vIdx"]])
    ];
    SReturn [XMeth (XSel (XVar "s") "builder") "String" []]
  ].

(* query/scoper.go:69-78 *)
Definition src_query_baseScoper_AddVar : func :=
  mkFunc ["s"; "v"] [] true
  [
    SIf [] (XBin OEq (XLen (XSel (XVar "s") "scopes")) (XInt 0)) [
      SReturn []
    ] [];
    SIf [SAssign [LBlank; LNew "ok"] [XIdx2 (XSel (XVar "s") "vars") (XVar "v")]] (XVar
        "ok") [
      SReturn []
    ] [];
    SAssign [LIdx (LSel (LVar "s") "vars") (XVar "v")] [XLen (XSel (XVar "s") "scopes")]
  ].

(* query/scoper.go:80-87 *)
Definition src_query_baseScoper_ScopeConst : func :=
  mkFunc ["s"; "c"] [] true
  [
    SRange "_" "g" (XSel (XVar "s") "scopes") [
      SIf [] (XBin OEq (XSel (XVar "g") "target") (XSel (XVar "c") "ID")) [
        SReturn [XStc "query.QConst" [("ID", XSel (XVar "c") "ID"); ("Val", XSel (XVar
            "g") "value")]; XBool true]
      ] []
    ];
    SReturn [XVar "c"; XBool false]
  ].

(* query/scoper.go:89-91 *)
Definition src_query_baseScoper_AddScope : func :=
  mkFunc ["s"; "tgt"] [] true
  [
    SAssign [LSel (LVar "s") "scopes"] [XApp (XSel (XVar "s") "scopes") [XStc
        "query.scope" [("target", XVar "tgt"); ("value", XLst []); ("vIdx", XInt 0)]]]
  ].

(* query/scoper.go:93-107 *)
Definition src_query_baseScoper_PopScope : func :=
  mkFunc ["s"] [] true
  [
    SIf [] (XBin OEq (XLen (XSel (XVar "s") "scopes")) (XInt 0)) [
      SReturn [XPrim "errors.New" [XStr "Invalid scope removal in empty scoper"]]
    ] [];
    SRange "v" "i" (XSel (XVar "s") "vars") [
      SIf [] (XBin OEq (XVar "i") (XLen (XSel (XVar "s") "scopes"))) [
        SDelete (LSel (LVar "s") "vars") (XVar "v")
      ] []
    ];
    SAssign [LSel (LVar "s") "scopes"] [XSlc (XSel (XVar "s") "scopes") None (Some (XBin
        OSub (XLen (XSel (XVar "s") "scopes")) (XInt 1)))];
    SReturn [XNil]
  ].

(* query/scoper.go:109-117 *)
Definition src_query_baseScoper_SetScope : func :=
  mkFunc ["s"; "vIdx"; "val"] [] true
  [
    SAssign [LNew "slen"] [XLen (XSel (XVar "s") "scopes")];
    SIf [] (XBin OEq (XVar "slen") (XInt 0)) [
      SReturn [XPrim "errors.New" [XStr "Invalid setting of scope in empty scoper"]]
    ] [];
    SAssign [LSel (LIdx (LSel (LVar "s") "scopes") (XBin OSub (XVar "slen") (XInt 1)))
        "vIdx"] [XVar "vIdx"];
    SAssign [LSel (LIdx (LSel (LVar "s") "scopes") (XBin OSub (XVar "slen") (XInt 1)))
        "value"] [XVar "val"];
    SReturn [XNil]
  ].

(* query/scoper.go:119-121 *)
Definition src_query_baseScoper_Reset : func :=
  mkFunc ["s"] [] true
  [
    SAssign [LSel (LVar "s") "scopes"] [XLst []]
  ].

(* query/varmanager.go:36-38 *)
Definition src_query_baseVarManager_TopV : func :=
  mkFunc ["vm"] [] true
  [
    SReturn [XSel (XVar "vm") "topv"]
  ].

(* query/varmanager.go:40-46 *)
Definition src_query_baseVarManager_UpdateTopV : func :=
  mkFunc ["vm"; "v"] [] true
  [
    SIf [] (XBin OGt (XSel (XVar "vm") "topv") (XVar "v")) [
      SReturn [XBool false]
    ] [];
    SAssign [LSel (LVar "vm") "topv"] [XVar "v"];
    SReturn [XBool true]
  ].

(* query/varmanager.go:48-56 *)
Definition src_query_baseVarManager_CNFVar : func :=
  mkFunc ["vm"; "v"; "idx"; "value"] [] true
  [
    SAssign [LNew "vr"] [XStc "query.varRep" [("v", XVar "v"); ("idx", XVar "idx");
        ("val", XVar "value")]];
    SIf [SAssign [LNew "val"; LNew "ok"] [XIdx2 (XSel (XVar "vm") "vars") (XVar "vr")]]
        (XVar "ok") [
      SReturn [XVar "val"]
    ] [];
    SAssign [LSel (LVar "vm") "topv"] [XBin OAdd (XSel (XVar "vm") "topv") (XInt 1)];
    SAssign [LIdx (LSel (LVar "vm") "vars") (XVar "vr")] [XSel (XVar "vm") "topv"];
    SReturn [XSel (XVar "vm") "topv"]
  ].

(* query/varmanager.go:58-61 *)
Definition src_query_baseVarManager_CNFVarExists : func :=
  mkFunc ["vm"; "v"; "idx"; "value"] [] true
  [
    SAssign [LBlank; LNew "ok"] [XIdx2 (XSel (XVar "vm") "vars") (XStc "query.varRep"
        [("v", XVar "v"); ("idx", XVar "idx"); ("val", XVar "value")])];
    SReturn [XVar "ok"]
  ].

(* query/varmanager.go:63-66 *)
Definition src_query_baseVarManager_Reset : func :=
  mkFunc ["vm"] [] true
  [
    SAssign [LSel (LVar "vm") "topv"] [XInt 0];
    SAssign [LSel (LVar "vm") "vars"] [XMap]
  ].

(* query/extensions/allcomp/const.go:22-84 *)
Definition src_allcomp_Const_Encoding : func :=
  mkFunc ["ac"; "ctx"] [] false
  [
    SIf [] (XBin OEq (XVar "ctx") (XNil)) [
      SReturn [XStc "cnf.CNF" [("tv", XInt 0); ("sClauses", XLst []); ("cClauses", XLst
          [])]; XPrim "errors.New" [XStr "Invalid encoding with nil ctx"]]
    ] [];
    SAssign [LNew "sc"; LBlank] [XMeth (XVar "ctx") "ScopeConst" [XSel (XVar "ac") "I"]];
    SIf [SAssign [LNew "err"] [XCall "query.ValidateConstsDim" [XMeth (XVar "ctx") "Dim"
        []; XLst [XVar "sc"]]]] (XBin ONe (XVar "err") (XNil)) [
      SReturn [XStc "cnf.CNF" [("tv", XInt 0); ("sClauses", XLst []); ("cClauses", XLst
          [])]; XVar "err"]
    ] [];
    SAssign [LNew "nodes"] [XMeth (XVar "ctx") "Nodes" []];
    SIf [] (XBin OEq (XLen (XVar "nodes")) (XInt 0)) [
      SReturn [XStc "cnf.CNF" [("tv", XInt 0); ("sClauses", XLst []); ("cClauses", XLst
          [])]; XPrim "errors.New" [XStr "Invalid encoding on empty model"]]
    ] [];
    SAssign [LNew "n"] [XStc "query.Node" [("Value", XBool false); ("Feat", XInt 0);
        ("ZChild", XInt 0); ("OChild", XInt 0)]];
    SAssign [LNew "dim"] [XMeth (XVar "ctx") "Dim" []];
    SAssign [LNew "nvisited"] [XMap];
    SAssign [LNew "nstack"] [XLst [XIdx (XVar "nodes") (XInt 0)]];
    SFor [] (XBin OGt (XLen (XVar "nstack")) (XInt 0)) [] [
      SAssign [LVar "n"; LVar "nstack"] [XIdx (XVar "nstack") (XBin OSub (XLen (XVar
          "nstack")) (XInt 1)); XSlc (XVar "nstack") None (Some (XBin OSub (XLen (XVar
          "nstack")) (XInt 1)))];
      SIf [] (XMeth (XVar "n") "IsLeaf" []) [
        SIf [] (XBin ONe (XSel (XVar "n") "Value") (XSel (XVar "ac") "LeafValue")) [
          SReturn [XGlob "cnf.FalseCNF"; XNil]
        ] [];
        SContinue
      ] [];
      SIf [] (XBin OOr (XBin OLt (XSel (XVar "n") "Feat") (XInt 0)) (XBin OGe (XSel (XVar
          "n") "Feat") (XVar "dim"))) [
        SReturn [XStc "cnf.CNF" [("tv", XInt 0); ("sClauses", XLst []); ("cClauses", XLst
            [])]; XPrim "fmt.Errorf" [XStr "Node's feature %d is out of range [0, %d]";
            XSel (XVar "n") "Feat"; XBin OSub (XVar "dim") (XInt 1)]]
      ] [];
      SIf [] (XBin OEq (XIdx (XSel (XVar "sc") "Val") (XSel (XVar "n") "Feat")) (XInt 0))
          [
        SIf [SAssign [LBlank; LNew "ok"] [XIdx2 (XVar "nvisited") (XSel (XVar "n")
            "ZChild")]] (XNot (XVar "ok")) [
          SAssign [LIdx (LVar "nvisited") (XSel (XVar "n") "ZChild")] [XStc "struct" []];
          SAssign [LVar "nstack"] [XApp (XVar "nstack") [XIdx (XVar "nodes") (XSel (XVar
              "n") "ZChild")]]
        ] [];
        SIf [SAssign [LBlank; LNew "ok"] [XIdx2 (XVar "nvisited") (XSel (XVar "n")
            "OChild")]] (XNot (XVar "ok")) [
          SAssign [LIdx (LVar "nvisited") (XSel (XVar "n") "OChild")] [XStc "struct" []];
          SAssign [LVar "nstack"] [XApp (XVar "nstack") [XIdx (XVar "nodes") (XSel (XVar
              "n") "OChild")]]
        ] []
      ] [
        SIf [] (XBin OEq (XIdx (XSel (XVar "sc") "Val") (XSel (XVar "n") "Feat")) (XInt
            1)) [
          SIf [SAssign [LBlank; LNew "ok"] [XIdx2 (XVar "nvisited") (XSel (XVar "n")
              "ZChild")]] (XNot (XVar "ok")) [
            SAssign [LIdx (LVar "nvisited") (XSel (XVar "n") "ZChild")] [XStc "struct"
                []];
            SAssign [LVar "nstack"] [XApp (XVar "nstack") [XIdx (XVar "nodes") (XSel (XVar
                "n") "ZChild")]]
          ] []
        ] [
          SIf [] (XBin OEq (XIdx (XSel (XVar "sc") "Val") (XSel (XVar "n") "Feat")) (XInt
              2)) [
            SIf [SAssign [LBlank; LNew "ok"] [XIdx2 (XVar "nvisited") (XSel (XVar "n")
                "OChild")]] (XNot (XVar "ok")) [
              SAssign [LIdx (LVar "nvisited") (XSel (XVar "n") "OChild")] [XStc "struct"
                  []];
              SAssign [LVar "nstack"] [XApp (XVar "nstack") [XIdx (XVar "nodes") (XSel
                  (XVar "n") "OChild")]]
            ] []
          ] []
        ]
      ]
    ];
    SReturn [XGlob "cnf.TrueCNF"; XNil]
  ].

(* query/extensions/allcomp/var.go:24-98 *)
Definition src_allcomp_Var_Encoding : func :=
  mkFunc ["ac"; "ctx"] [] false
  [
    SIf [] (XBin OEq (XVar "ctx") (XNil)) [
      SReturn [XStc "cnf.CNF" [("tv", XInt 0); ("sClauses", XLst []); ("cClauses", XLst
          [])]; XPrim "errors.New" [XStr "Invalid encoding with nil ctx"]]
    ] [];
    SIf [] (XBin OEq (XSel (XVar "ac") "ReachNodeVarGen") (XNil)) [
      SReturn [XStc "cnf.CNF" [("tv", XInt 0); ("sClauses", XLst []); ("cClauses", XLst
          [])]; XPrim "errors.New" [XStr "Invalid nil var generation function"]]
    ] [];
    SAssign [LNew "nodes"] [XMeth (XVar "ctx") "Nodes" []];
    SIf [] (XBin OEq (XLen (XVar "nodes")) (XInt 0)) [
      SReturn [XStc "cnf.CNF" [("tv", XInt 0); ("sClauses", XLst []); ("cClauses", XLst
          [])]; XPrim "errors.New" [XStr "Invalid encoding on empty model"]]
    ] [];
    SAssign [LNew "sv"] [XMeth (XVar "ctx") "ScopeVar" [XSel (XVar "ac") "I"]];
    SAssign [LNew "svReach"] [XDyn (XSel (XVar "ac") "ReachNodeVarGen") [XVar "sv"]];
    SAssign [LNew "ncnf"] [XStc "cnf.CNF" [("tv", XInt 0); ("sClauses", XLst []);
        ("cClauses", XLst [])]];
    SAssign [LVar "ncnf"] [XMeth (XVar "ncnf") "AppendConsistency" [XLst [XLst [XMeth
        (XVar "ctx") "CNFVar" [XVar "svReach"; XInt 0; XInt 0]]]]];
    SRange "i" "node" (XVar "nodes") [
      SIf [] (XMeth (XVar "node") "IsLeaf" []) [
        SIf [] (XBin ONe (XSel (XVar "node") "Value") (XSel (XVar "ac") "LeafValue")) [
          SAssign [LVar "ncnf"] [XMeth (XVar "ncnf") "AppendSemantics" [XLst [XLst [XNeg
              (XMeth (XVar "ctx") "CNFVar" [XVar "svReach"; XInt 0; XVar "i"])]]]]
        ] [];
        SContinue
      ] [];
      SAssign [LVar "ncnf"] [XMeth (XVar "ncnf") "AppendConsistency" [XLst [XLst [XNeg
          (XMeth (XVar "ctx") "CNFVar" [XVar "sv"; XSel (XVar "node") "Feat"; XInt 1]);
          XNeg (XMeth (XVar "ctx") "CNFVar" [XVar "svReach"; XInt 0; XVar "i"]); XMeth
          (XVar "ctx") "CNFVar" [XVar "svReach"; XInt 0; XSel (XVar "node") "ZChild"]];
          XLst [XNeg (XMeth (XVar "ctx") "CNFVar" [XVar "sv"; XSel (XVar "node") "Feat";
          XInt 2]); XNeg (XMeth (XVar "ctx") "CNFVar" [XVar "svReach"; XInt 0; XVar "i"]);
          XMeth (XVar "ctx") "CNFVar" [XVar "svReach"; XInt 0; XSel (XVar "node")
          "OChild"]]; XLst [XNeg (XMeth (XVar "ctx") "CNFVar" [XVar "sv"; XSel (XVar
          "node") "Feat"; XInt 0]); XNeg (XMeth (XVar "ctx") "CNFVar" [XVar "svReach";
          XInt 0; XVar "i"]); XMeth (XVar "ctx") "CNFVar" [XVar "svReach"; XInt 0; XSel
          (XVar "node") "ZChild"]]; XLst [XNeg (XMeth (XVar "ctx") "CNFVar" [XVar "sv";
          XSel (XVar "node") "Feat"; XInt 0]); XNeg (XMeth (XVar "ctx") "CNFVar" [XVar
          "svReach"; XInt 0; XVar "i"]); XMeth (XVar "ctx") "CNFVar" [XVar "svReach"; XInt
          0; XSel (XVar "node") "OChild"]]; XLst [XNeg (XMeth (XVar "ctx") "CNFVar" [XVar
          "svReach"; XInt 0; XSel (XVar "node") "OChild"]); XMeth (XVar "ctx") "CNFVar"
          [XVar "svReach"; XInt 0; XVar "i"]]; XLst [XNeg (XMeth (XVar "ctx") "CNFVar"
          [XVar "svReach"; XInt 0; XSel (XVar "node") "OChild"]); XMeth (XVar "ctx")
          "CNFVar" [XVar "sv"; XSel (XVar "node") "Feat"; XInt 2]; XMeth (XVar "ctx")
          "CNFVar" [XVar "sv"; XSel (XVar "node") "Feat"; XInt 0]]; XLst [XNeg (XMeth
          (XVar "ctx") "CNFVar" [XVar "svReach"; XInt 0; XSel (XVar "node") "ZChild"]);
          XMeth (XVar "ctx") "CNFVar" [XVar "svReach"; XInt 0; XVar "i"]]; XLst [XNeg
          (XMeth (XVar "ctx") "CNFVar" [XVar "svReach"; XInt 0; XSel (XVar "node")
          "ZChild"]); XMeth (XVar "ctx") "CNFVar" [XVar "sv"; XSel (XVar "node") "Feat";
          XInt 1]; XMeth (XVar "ctx") "CNFVar" [XVar "sv"; XSel (XVar "node") "Feat"; XInt
          0]]]]]
    ];
    SReturn [XVar "ncnf"; XNil]
  ].

(* query/extensions/cons/const_const.go:19-44 *)
Definition src_cons_ConstConst_Encoding : func :=
  mkFunc ["c"; "ctx"] [] false
  [
    SIf [] (XBin OEq (XVar "ctx") (XNil)) [
      SReturn [XStc "cnf.CNF" [("tv", XInt 0); ("sClauses", XLst []); ("cClauses", XLst
          [])]; XPrim "errors.New" [XStr "Invalid encoding with nil ctx"]]
    ] [];
    SAssign [LNew "sc1"; LBlank] [XMeth (XVar "ctx") "ScopeConst" [XSel (XVar "c") "I1"]];
    SAssign [LNew "sc2"; LBlank] [XMeth (XVar "ctx") "ScopeConst" [XSel (XVar "c") "I2"]];
    SIf [SAssign [LNew "err"] [XCall "query.ValidateConstsDim" [XMeth (XVar "ctx") "Dim"
        []; XLst [XVar "sc1"; XVar "sc2"]]]] (XBin ONe (XVar "err") (XNil)) [
      SReturn [XStc "cnf.CNF" [("tv", XInt 0); ("sClauses", XLst []); ("cClauses", XLst
          [])]; XVar "err"]
    ] [];
    SFor [SAssign [LNew "i"] [XInt 0]] (XBin OLt (XVar "i") (XMeth (XVar "ctx") "Dim" []))
        [SAssign [LVar "i"] [XBin OAdd (XVar "i") (XInt 1)]] [
      SIf [] (XBin OAnd (XBin OAnd (XBin ONe (XIdx (XSel (XVar "sc1") "Val") (XVar "i"))
          (XInt 0)) (XBin ONe (XIdx (XSel (XVar "sc2") "Val") (XVar "i")) (XInt 0))) (XBin
          ONe (XIdx (XSel (XVar "sc1") "Val") (XVar "i")) (XIdx (XSel (XVar "sc2") "Val")
          (XVar "i")))) [
        SReturn [XGlob "cnf.FalseCNF"; XNil]
      ] []
    ];
    SReturn [XGlob "cnf.TrueCNF"; XNil]
  ].

(* query/extensions/cons/const_var.go:19-51 *)
Definition src_cons_ConstVar_Encoding : func :=
  mkFunc ["c"; "ctx"] [] false
  [
    SIf [] (XBin OEq (XVar "ctx") (XNil)) [
      SReturn [XStc "cnf.CNF" [("tv", XInt 0); ("sClauses", XLst []); ("cClauses", XLst
          [])]; XPrim "errors.New" [XStr "Invalid encoding with nil ctx"]]
    ] [];
    SAssign [LNew "sc"; LBlank] [XMeth (XVar "ctx") "ScopeConst" [XSel (XVar "c") "I1"]];
    SAssign [LNew "sv"] [XMeth (XVar "ctx") "ScopeVar" [XSel (XVar "c") "I2"]];
    SIf [SAssign [LNew "err"] [XCall "query.ValidateConstsDim" [XMeth (XVar "ctx") "Dim"
        []; XLst [XVar "sc"]]]] (XBin ONe (XVar "err") (XNil)) [
      SReturn [XStc "cnf.CNF" [("tv", XInt 0); ("sClauses", XLst []); ("cClauses", XLst
          [])]; XVar "err"]
    ] [];
    SAssign [LNew "clauses"] [XLst []];
    SRange "i" "ft" (XSel (XVar "sc") "Val") [
      SIf [] (XBin OEq (XVar "ft") (XInt 0)) [
        SContinue
      ] [];
      SAssign [LNew "val"] [XInt 1];
      SIf [] (XBin OEq (XVar "ft") (XInt 1)) [
        SAssign [LVar "val"] [XInt 2]
      ] [];
      SAssign [LVar "clauses"] [XApp (XVar "clauses") [XLst [XNeg (XMeth (XVar "ctx")
          "CNFVar" [XVar "sv"; XVar "i"; XVar "val"])]]]
    ];
    SIf [] (XBin OEq (XLen (XVar "clauses")) (XInt 0)) [
      SReturn [XGlob "cnf.TrueCNF"; XNil]
    ] [];
    SReturn [XCall "cnf.FromClauses" [XVar "clauses"]; XNil]
  ].

(* query/extensions/cons/var_const.go:19-51 *)
Definition src_cons_VarConst_Encoding : func :=
  mkFunc ["c"; "ctx"] [] false
  [
    SIf [] (XBin OEq (XVar "ctx") (XNil)) [
      SReturn [XStc "cnf.CNF" [("tv", XInt 0); ("sClauses", XLst []); ("cClauses", XLst
          [])]; XPrim "errors.New" [XStr "Invalid encoding with nil ctx"]]
    ] [];
    SAssign [LNew "sv"] [XMeth (XVar "ctx") "ScopeVar" [XSel (XVar "c") "I1"]];
    SAssign [LNew "sc"; LBlank] [XMeth (XVar "ctx") "ScopeConst" [XSel (XVar "c") "I2"]];
    SIf [SAssign [LNew "err"] [XCall "query.ValidateConstsDim" [XMeth (XVar "ctx") "Dim"
        []; XLst [XVar "sc"]]]] (XBin ONe (XVar "err") (XNil)) [
      SReturn [XStc "cnf.CNF" [("tv", XInt 0); ("sClauses", XLst []); ("cClauses", XLst
          [])]; XVar "err"]
    ] [];
    SAssign [LNew "clauses"] [XLst []];
    SRange "i" "ft" (XSel (XVar "sc") "Val") [
      SIf [] (XBin OEq (XVar "ft") (XInt 0)) [
        SContinue
      ] [];
      SAssign [LNew "val"] [XInt 1];
      SIf [] (XBin OEq (XVar "ft") (XInt 1)) [
        SAssign [LVar "val"] [XInt 2]
      ] [];
      SAssign [LVar "clauses"] [XApp (XVar "clauses") [XLst [XNeg (XMeth (XVar "ctx")
          "CNFVar" [XVar "sv"; XVar "i"; XVar "val"])]]]
    ];
    SIf [] (XBin OEq (XLen (XVar "clauses")) (XInt 0)) [
      SReturn [XGlob "cnf.TrueCNF"; XNil]
    ] [];
    SReturn [XCall "cnf.FromClauses" [XVar "clauses"]; XNil]
  ].

(* query/extensions/cons/var_var.go:19-44 *)
Definition src_cons_VarVar_Encoding : func :=
  mkFunc ["c"; "ctx"] [] false
  [
    SIf [] (XBin OEq (XVar "ctx") (XNil)) [
      SReturn [XStc "cnf.CNF" [("tv", XInt 0); ("sClauses", XLst []); ("cClauses", XLst
          [])]; XPrim "errors.New" [XStr "Invalid encoding with nil ctx"]]
    ] [];
    SAssign [LNew "sv1"] [XMeth (XVar "ctx") "ScopeVar" [XSel (XVar "c") "I1"]];
    SAssign [LNew "sv2"] [XMeth (XVar "ctx") "ScopeVar" [XSel (XVar "c") "I2"]];
    SAssign [LNew "clauses"] [XLst []];
    SFor [SAssign [LNew "i"] [XInt 0]] (XBin OLt (XVar "i") (XMeth (XVar "ctx") "Dim" []))
        [SAssign [LVar "i"] [XBin OAdd (XVar "i") (XInt 1)]] [
      SAssign [LVar "clauses"] [XApp (XVar "clauses") [XLst [XNeg (XMeth (XVar "ctx")
          "CNFVar" [XVar "sv1"; XVar "i"; XInt 2]); XNeg (XMeth (XVar "ctx") "CNFVar"
          [XVar "sv2"; XVar "i"; XInt 1])]; XLst [XNeg (XMeth (XVar "ctx") "CNFVar" [XVar
          "sv1"; XVar "i"; XInt 1]); XNeg (XMeth (XVar "ctx") "CNFVar" [XVar "sv2"; XVar
          "i"; XInt 2])]]]
    ];
    SReturn [XCall "cnf.FromClauses" [XVar "clauses"]; XNil]
  ].

(* query/extensions/dfs/const.go:17-50 *)
Definition src_dfs_Const_Encoding : func :=
  mkFunc ["d"; "ctx"] [] false
  [
    SIf [] (XBin OEq (XVar "ctx") (XNil)) [
      SReturn [XStc "cnf.CNF" [("tv", XInt 0); ("sClauses", XLst []); ("cClauses", XLst
          [])]; XPrim "errors.New" [XStr "Invalid encoding with nil ctx"]]
    ] [];
    SAssign [LNew "sc"; LBlank] [XMeth (XVar "ctx") "ScopeConst" [XSel (XVar "d") "I"]];
    SIf [SAssign [LNew "err"] [XCall "query.ValidateConstsDim" [XMeth (XVar "ctx") "Dim"
        []; XLst [XVar "sc"]]]] (XBin ONe (XVar "err") (XNil)) [
      SReturn [XStc "cnf.CNF" [("tv", XInt 0); ("sClauses", XLst []); ("cClauses", XLst
          [])]; XVar "err"]
    ] [];
    SAssign [LNew "pleaf"; LNew "nleaf"; LNew "err"] [XCall "dfs.leafsAsConsts" [XMeth
        (XVar "ctx") "Dim" []; XMeth (XVar "ctx") "Nodes" []]];
    SIf [] (XBin ONe (XVar "err") (XNil)) [
      SReturn [XStc "cnf.CNF" [("tv", XInt 0); ("sClauses", XLst []); ("cClauses", XLst
          [])]; XVar "err"]
    ] [];
    SIf [] (XBin OAnd (XBin OEq (XLen (XVar "pleaf")) (XInt 0)) (XBin OEq (XLen (XVar
        "nleaf")) (XInt 0))) [
      SReturn [XStc "cnf.CNF" [("tv", XInt 0); ("sClauses", XLst []); ("cClauses", XLst
          [])]; XPrim "errors.New" [XStr "Invalid encoding on empty model"]]
    ] [];
    SRange "_" "p" (XVar "pleaf") [
      SRange "_" "n" (XVar "nleaf") [
        SAssign [LNew "cons"; LNew "err"] [XCall "dfs.leafCompare" [XVar "sc"; XVar "p";
            XVar "n"]];
        SIf [] (XBin ONe (XVar "err") (XNil)) [
          SReturn [XStc "cnf.CNF" [("tv", XInt 0); ("sClauses", XLst []); ("cClauses",
              XLst [])]; XVar "err"]
        ] [];
        SIf [] (XNot (XVar "cons")) [
          SReturn [XGlob "cnf.FalseCNF"; XNil]
        ] []
      ]
    ];
    SReturn [XGlob "cnf.TrueCNF"; XNil]
  ].

(* query/extensions/dfs/const.go:52-68 *)
Definition src_dfs_leafCompare : func :=
  mkFunc ["c"; "l1"; "l2"] [] false
  [
    SIf [] (XBin OOr (XBin ONe (XLen (XSel (XVar "c") "Val")) (XLen (XSel (XVar "l1")
        "Val"))) (XBin ONe (XLen (XSel (XVar "c") "Val")) (XLen (XSel (XVar "l2")
        "Val")))) [
      SReturn [XBool false; XPrim "errors.New" [XStr
          "Invalid comparison of constants of different dim"]]
    ] [];
    SRange "i" "ft" (XSel (XVar "c") "Val") [
      SIf [] (XBin OAnd (XBin OAnd (XBin OAnd (XBin ONe (XVar "ft") (XInt 0)) (XBin ONe
          (XIdx (XSel (XVar "l1") "Val") (XVar "i")) (XInt 0))) (XBin ONe (XIdx (XSel
          (XVar "l2") "Val") (XVar "i")) (XInt 0))) (XBin ONe (XIdx (XSel (XVar "l1")
          "Val") (XVar "i")) (XIdx (XSel (XVar "l2") "Val") (XVar "i")))) [
        SReturn [XBool true; XNil]
      ] []
    ];
    SReturn [XBool false; XNil]
  ].

(* query/extensions/dfs/utils.go:11-93 *)
Definition src_dfs_leafsAsConsts : func :=
  mkFunc ["dim"; "nodes"] [] false
  [
    SRange "_" "n" (XVar "nodes") [
      SIf [SAssign [LNew "err"] [XCall "dfs.validateNode" [XVar "n"; XVar "dim"; XLen
          (XVar "nodes")]]] (XBin ONe (XVar "err") (XNil)) [
        SReturn [XLst []; XLst []; XVar "err"]
      ] []
    ];
    SAssign [LNew "pleaf"] [XLst []];
    SAssign [LNew "nleaf"] [XLst []];
    SAssign [LNew "tmp"] [XLst []];
    SAssign [LNew "cv"] [XMake (XInt 0) (XVar "dim")];
    SAssign [LNew "cp"; LNew "pp"; LNew "zp"; LNew "op"] [XInt 0; XInt 0; XInt 0; XInt 0];
    SAssign [LNew "walk"] [XMake (XStc "struct" [("prev", XInt 0); ("visited", XBool
        false)]) (XLen (XVar "nodes"))];
    SFor [] (XBool true) [] [
      SIf [] (XSel (XIdx (XVar "walk") (XVar "cp")) "visited") [
        SIf [] (XMeth (XIdx (XVar "nodes") (XVar "cp")) "IsLeaf" []) [
          SGoto "backup"
        ] [];
        SAssign [LVar "zp"] [XSel (XIdx (XVar "nodes") (XVar "cp")) "ZChild"];
        SIf [] (XNot (XSel (XIdx (XVar "walk") (XVar "zp")) "visited")) [
          SAssign [LIdx (LVar "cv") (XSel (XIdx (XVar "nodes") (XVar "cp")) "Feat")] [XInt
              1];
          SAssign [LVar "pp"] [XVar "cp"];
          SAssign [LVar "cp"] [XVar "zp"];
          SAssign [LSel (LIdx (LVar "walk") (XVar "cp")) "prev"] [XVar "pp"];
          SContinue
        ] [];
        SAssign [LVar "op"] [XSel (XIdx (XVar "nodes") (XVar "cp")) "OChild"];
        SIf [] (XNot (XSel (XIdx (XVar "walk") (XVar "op")) "visited")) [
          SAssign [LIdx (LVar "cv") (XSel (XIdx (XVar "nodes") (XVar "cp")) "Feat")] [XInt
              2];
          SAssign [LVar "pp"] [XVar "cp"];
          SAssign [LVar "cp"] [XVar "op"];
          SAssign [LSel (LIdx (LVar "walk") (XVar "cp")) "prev"] [XVar "pp"];
          SContinue
        ] [];
        SLabel "backup";
        SIf [] (XBin OEq (XVar "cp") (XInt 0)) [
          SBreak
        ] [];
        SAssign [LVar "cp"] [XSel (XIdx (XVar "walk") (XVar "cp")) "prev"];
        SAssign [LIdx (LVar "cv") (XSel (XIdx (XVar "nodes") (XVar "cp")) "Feat")] [XInt
            0];
        SContinue
      ] [];
      SAssign [LSel (LIdx (LVar "walk") (XVar "cp")) "visited"] [XBool true];
      SIf [] (XNot (XMeth (XIdx (XVar "nodes") (XVar "cp")) "IsLeaf" [])) [
        SContinue
      ] [];
      SAssign [LVar "tmp"] [XMake (XInt 0) (XVar "dim")];
      SCopy (LVar "tmp") (XVar "cv");
      SIf [] (XSel (XIdx (XVar "nodes") (XVar "cp")) "Value") [
        SAssign [LVar "pleaf"] [XApp (XVar "pleaf") [XStc "query.QConst" [("ID", XStr "");
            ("Val", XVar "tmp")]]]
      ] [
        SAssign [LVar "nleaf"] [XApp (XVar "nleaf") [XStc "query.QConst" [("ID", XStr "");
            ("Val", XVar "tmp")]]]
      ]
    ];
    SReturn [XVar "pleaf"; XVar "nleaf"; XNil]
  ].

(* query/extensions/dfs/utils.go:97-119 *)
Definition src_dfs_validateNode : func :=
  mkFunc ["n"; "dim"; "nlen"] [] false
  [
    SIf [] (XMeth (XVar "n") "IsLeaf" []) [
      SReturn [XNil]
    ] [];
    SIf [] (XBin OOr (XBin OLt (XSel (XVar "n") "Feat") (XInt 0)) (XBin OGe (XSel (XVar
        "n") "Feat") (XVar "dim"))) [
      SReturn [XPrim "fmt.Errorf" [XStr "Node's feature %d is out of range [0, %d]"; XSel
          (XVar "n") "Feat"; XBin OSub (XVar "dim") (XInt 1)]]
    ] [];
    SIf [] (XBin OOr (XBin OLt (XSel (XVar "n") "ZChild") (XInt 0)) (XBin OGe (XSel (XVar
        "n") "ZChild") (XVar "nlen"))) [
      SReturn [XPrim "fmt.Errorf" [XStr "Node's ZChild out of bounds %d"; XSel (XVar "n")
          "ZChild"]]
    ] [];
    SIf [] (XBin OOr (XBin OLt (XSel (XVar "n") "OChild") (XInt 0)) (XBin OGe (XSel (XVar
        "n") "OChild") (XVar "nlen"))) [
      SReturn [XPrim "fmt.Errorf" [XStr "Node's OChild out of bounds %d"; XSel (XVar "n")
          "OChild"]]
    ] [];
    SReturn [XNil]
  ].

(* query/extensions/dfs/var.go:17-47 *)
Definition src_dfs_Var_Encoding : func :=
  mkFunc ["d"; "ctx"] [] false
  [
    SIf [] (XBin OEq (XVar "ctx") (XNil)) [
      SReturn [XStc "cnf.CNF" [("tv", XInt 0); ("sClauses", XLst []); ("cClauses", XLst
          [])]; XPrim "errors.New" [XStr "Invalid encoding with nil ctx"]]
    ] [];
    SAssign [LNew "sv"] [XMeth (XVar "ctx") "ScopeVar" [XSel (XVar "d") "I"]];
    SAssign [LNew "pleaf"; LNew "nleaf"; LNew "err"] [XCall "dfs.leafsAsConsts" [XMeth
        (XVar "ctx") "Dim" []; XMeth (XVar "ctx") "Nodes" []]];
    SIf [] (XBin ONe (XVar "err") (XNil)) [
      SReturn [XStc "cnf.CNF" [("tv", XInt 0); ("sClauses", XLst []); ("cClauses", XLst
          [])]; XVar "err"]
    ] [];
    SIf [] (XBin OAnd (XBin OEq (XLen (XVar "pleaf")) (XInt 0)) (XBin OEq (XLen (XVar
        "nleaf")) (XInt 0))) [
      SReturn [XStc "cnf.CNF" [("tv", XInt 0); ("sClauses", XLst []); ("cClauses", XLst
          [])]; XPrim "errors.New" [XStr "Invalid encoding on empty model"]]
    ] [];
    SAssign [LNew "clauses"] [XLst []];
    SRange "_" "p" (XVar "pleaf") [
      SRange "_" "n" (XVar "nleaf") [
        SAssign [LNew "cl"; LNew "err"] [XCall "dfs.notAWitnessClause" [XVar "sv"; XVar
            "p"; XVar "n"; XVar "ctx"]];
        SIf [] (XBin ONe (XVar "err") (XNil)) [
          SReturn [XStc "cnf.CNF" [("tv", XInt 0); ("sClauses", XLst []); ("cClauses",
              XLst [])]; XVar "err"]
        ] [];
        SAssign [LVar "clauses"] [XApp (XVar "clauses") [XVar "cl"]]
      ]
    ];
    SReturn [XCall "cnf.FromClauses" [XVar "clauses"]; XNil]
  ].

(* query/extensions/dfs/var.go:49-71 *)
Definition src_dfs_notAWitnessClause : func :=
  mkFunc ["v"; "l1"; "l2"; "ctx"] [] false
  [
    SAssign [LNew "dim"] [XMeth (XVar "ctx") "Dim" []];
    SAssign [LNew "clause"] [XLst []];
    SIf [] (XBin OOr (XBin ONe (XVar "dim") (XLen (XSel (XVar "l1") "Val"))) (XBin ONe
        (XVar "dim") (XLen (XSel (XVar "l2") "Val")))) [
      SReturn [XVar "clause"; XPrim "errors.New" [XStr
          "Invalid comparison of constants of different dim"]]
    ] [];
    SFor [SAssign [LNew "i"] [XInt 0]] (XBin OLt (XVar "i") (XMeth (XVar "ctx") "Dim" []))
        [SAssign [LVar "i"] [XBin OAdd (XVar "i") (XInt 1)]] [
      SIf [] (XBin OAnd (XBin OAnd (XBin ONe (XIdx (XSel (XVar "l1") "Val") (XVar "i"))
          (XInt 0)) (XBin ONe (XIdx (XSel (XVar "l2") "Val") (XVar "i")) (XInt 0))) (XBin
          ONe (XIdx (XSel (XVar "l1") "Val") (XVar "i")) (XIdx (XSel (XVar "l2") "Val")
          (XVar "i")))) [
        SAssign [LVar "clause"] [XApp (XVar "clause") [XNeg (XMeth (XVar "ctx") "CNFVar"
            [XVar "v"; XVar "i"; XInt 0])]]
      ] []
    ];
    SReturn [XVar "clause"; XNil]
  ].

(* query/extensions/full/const.go:17-34 *)
Definition src_full_Const_Encoding : func :=
  mkFunc ["f"; "ctx"] [] false
  [
    SIf [] (XBin OEq (XVar "ctx") (XNil)) [
      SReturn [XStc "cnf.CNF" [("tv", XInt 0); ("sClauses", XLst []); ("cClauses", XLst
          [])]; XPrim "errors.New" [XStr "Invalid encoding with nil ctx"]]
    ] [];
    SAssign [LNew "sc"; LBlank] [XMeth (XVar "ctx") "ScopeConst" [XSel (XVar "f") "I"]];
    SIf [SAssign [LNew "err"] [XCall "query.ValidateConstsDim" [XMeth (XVar "ctx") "Dim"
        []; XLst [XVar "sc"]]]] (XBin ONe (XVar "err") (XNil)) [
      SReturn [XStc "cnf.CNF" [("tv", XInt 0); ("sClauses", XLst []); ("cClauses", XLst
          [])]; XVar "err"]
    ] [];
    SRange "_" "ft" (XSel (XVar "sc") "Val") [
      SIf [] (XBin OEq (XVar "ft") (XInt 0)) [
        SReturn [XGlob "cnf.FalseCNF"; XNil]
      ] []
    ];
    SReturn [XGlob "cnf.TrueCNF"; XNil]
  ].

(* query/extensions/full/var.go:17-33 *)
Definition src_full_Var_Encoding : func :=
  mkFunc ["f"; "ctx"] [] false
  [
    SIf [] (XBin OEq (XVar "ctx") (XNil)) [
      SReturn [XStc "cnf.CNF" [("tv", XInt 0); ("sClauses", XLst []); ("cClauses", XLst
          [])]; XPrim "errors.New" [XStr "Invalid encoding with nil ctx"]]
    ] [];
    SAssign [LNew "sv"] [XMeth (XVar "ctx") "ScopeVar" [XSel (XVar "f") "I"]];
    SAssign [LNew "clauses"] [XLst []];
    SFor [SAssign [LNew "i"] [XInt 0]] (XBin OLt (XVar "i") (XMeth (XVar "ctx") "Dim" []))
        [SAssign [LVar "i"] [XBin OAdd (XVar "i") (XInt 1)]] [
      SAssign [LVar "clauses"] [XApp (XVar "clauses") [XLst [XNeg (XMeth (XVar "ctx")
          "CNFVar" [XVar "sv"; XVar "i"; XInt 0])]]]
    ];
    SReturn [XCall "cnf.FromClauses" [XVar "clauses"]; XNil]
  ].

(* query/extensions/hepr/const_const.go:21-50 *)
Definition src_hepr_ConstConst_Encoding : func :=
  mkFunc ["d"; "ctx"] [] false
  [
    SIf [] (XBin OEq (XVar "ctx") (XNil)) [
      SReturn [XStc "cnf.CNF" [("tv", XInt 0); ("sClauses", XLst []); ("cClauses", XLst
          [])]; XPrim "errors.New" [XStr "Invalid encoding with nil ctx"]]
    ] [];
    SIf [SAssign [LNew "err"] [XCall "hepr.validatePref" [XSel (XVar "d") "Preference";
        XMeth (XVar "ctx") "Dim" []]]] (XBin ONe (XVar "err") (XNil)) [
      SReturn [XStc "cnf.CNF" [("tv", XInt 0); ("sClauses", XLst []); ("cClauses", XLst
          [])]; XVar "err"]
    ] [];
    SAssign [LNew "sc1"; LBlank] [XMeth (XVar "ctx") "ScopeConst" [XSel (XVar "d") "I1"]];
    SAssign [LNew "sc2"; LBlank] [XMeth (XVar "ctx") "ScopeConst" [XSel (XVar "d") "I2"]];
    SIf [SAssign [LNew "err"] [XCall "query.ValidateConstsDim" [XMeth (XVar "ctx") "Dim"
        []; XLst [XVar "sc1"; XVar "sc2"]]]] (XBin ONe (XVar "err") (XNil)) [
      SReturn [XStc "cnf.CNF" [("tv", XInt 0); ("sClauses", XLst []); ("cClauses", XLst
          [])]; XVar "err"]
    ] [];
    SIf [] (XBin OEq (XLen (XSel (XVar "d") "Preference")) (XInt 0)) [
      SReturn [XGlob "cnf.TrueCNF"; XNil]
    ] [];
    SRange "_" "idx" (XSel (XVar "d") "Preference") [
      SIf [] (XBin OAnd (XBin ONe (XIdx (XSel (XVar "sc1") "Val") (XVar "idx")) (XInt 0))
          (XBin OEq (XIdx (XSel (XVar "sc2") "Val") (XVar "idx")) (XInt 0))) [
        SReturn [XGlob "cnf.TrueCNF"; XNil]
      ] [];
      SIf [] (XBin OAnd (XBin OEq (XIdx (XSel (XVar "sc1") "Val") (XVar "idx")) (XInt 0))
          (XBin ONe (XIdx (XSel (XVar "sc2") "Val") (XVar "idx")) (XInt 0))) [
        SReturn [XGlob "cnf.FalseCNF"; XNil]
      ] []
    ];
    SReturn [XGlob "cnf.TrueCNF"; XNil]
  ].

(* query/extensions/hepr/const_var.go:25-110 *)
Definition src_hepr_ConstVar_Encoding : func :=
  mkFunc ["d"; "ctx"] [] false
  [
    SIf [] (XBin OEq (XVar "ctx") (XNil)) [
      SReturn [XStc "cnf.CNF" [("tv", XInt 0); ("sClauses", XLst []); ("cClauses", XLst
          [])]; XPrim "errors.New" [XStr "Invalid encoding with nil ctx"]]
    ] [];
    SIf [] (XBin OEq (XSel (XVar "d") "FeaturePreferenceRankVarGen") (XNil)) [
      SReturn [XStc "cnf.CNF" [("tv", XInt 0); ("sClauses", XLst []); ("cClauses", XLst
          [])]; XPrim "errors.New" [XStr "Invalid nil var generation function"]]
    ] [];
    SIf [SAssign [LNew "err"] [XCall "hepr.validatePref" [XSel (XVar "d") "Preference";
        XMeth (XVar "ctx") "Dim" []]]] (XBin ONe (XVar "err") (XNil)) [
      SReturn [XStc "cnf.CNF" [("tv", XInt 0); ("sClauses", XLst []); ("cClauses", XLst
          [])]; XVar "err"]
    ] [];
    SAssign [LNew "dim"] [XMeth (XVar "ctx") "Dim" []];
    SAssign [LNew "sc"; LBlank] [XMeth (XVar "ctx") "ScopeConst" [XSel (XVar "d") "I1"]];
    SAssign [LNew "sv"] [XMeth (XVar "ctx") "ScopeVar" [XSel (XVar "d") "I2"]];
    SAssign [LNew "cvp"] [XDyn (XSel (XVar "d") "FeaturePreferenceRankVarGen") [XCall
        "hepr.prefVar" [XSel (XVar "d") "Preference"]; XMeth (XVar "sc") "AsString" [];
        XVar "sv"]];
    SIf [SAssign [LNew "err"] [XCall "query.ValidateConstsDim" [XVar "dim"; XLst [XVar
        "sc"]]]] (XBin ONe (XVar "err") (XNil)) [
      SReturn [XStc "cnf.CNF" [("tv", XInt 0); ("sClauses", XLst []); ("cClauses", XLst
          [])]; XVar "err"]
    ] [];
    SAssign [LNew "ncnf"] [XStc "cnf.CNF" [("tv", XInt 0); ("sClauses", XLst []);
        ("cClauses", XLst [])]];
    SAssign [LNew "plen"] [XLen (XSel (XVar "d") "Preference")];
    SAssign [LNew "idx"] [XIdx (XSel (XVar "d") "Preference") (XBin OSub (XVar "plen")
        (XInt 1))];
    SIf [] (XBin ONe (XIdx (XSel (XVar "sc") "Val") (XVar "idx")) (XInt 0)) [
      SAssign [LVar "ncnf"] [XMeth (XVar "ncnf") "AppendConsistency" [XLst [XLst [XMeth
          (XVar "ctx") "CNFVar" [XVar "cvp"; XInt 0; XBin OSub (XVar "plen") (XInt 1)]]]]]
    ] [
      SAssign [LVar "ncnf"] [XMeth (XVar "ncnf") "AppendConsistency" [XLst [XLst [XNeg
          (XMeth (XVar "ctx") "CNFVar" [XVar "cvp"; XInt 0; XBin OSub (XVar "plen") (XInt
          1)]); XMeth (XVar "ctx") "CNFVar" [XVar "sv"; XVar "idx"; XInt 0]]; XLst [XNeg
          (XMeth (XVar "ctx") "CNFVar" [XVar "sv"; XVar "idx"; XInt 0]); XMeth (XVar
          "ctx") "CNFVar" [XVar "cvp"; XInt 0; XBin OSub (XVar "plen") (XInt 1)]]]]]
    ];
    SFor [SAssign [LNew "i"] [XBin OSub (XVar "plen") (XInt 2)]] (XBin OGe (XVar "i")
        (XInt 0)) [SAssign [LVar "i"] [XBin OSub (XVar "i") (XInt 1)]] [
      SAssign [LVar "idx"] [XIdx (XSel (XVar "d") "Preference") (XVar "i")];
      SIf [] (XBin ONe (XIdx (XSel (XVar "sc") "Val") (XVar "idx")) (XInt 0)) [
        SAssign [LVar "ncnf"] [XMeth (XVar "ncnf") "AppendConsistency" [XLst [XLst [XNeg
            (XMeth (XVar "ctx") "CNFVar" [XVar "cvp"; XInt 0; XVar "i"]); XMeth (XVar
            "ctx") "CNFVar" [XVar "sv"; XVar "idx"; XInt 0]; XMeth (XVar "ctx") "CNFVar"
            [XVar "cvp"; XInt 0; XBin OAdd (XVar "i") (XInt 1)]]; XLst [XNeg (XMeth (XVar
            "ctx") "CNFVar" [XVar "sv"; XVar "idx"; XInt 0]); XMeth (XVar "ctx") "CNFVar"
            [XVar "cvp"; XInt 0; XVar "i"]]; XLst [XNeg (XMeth (XVar "ctx") "CNFVar" [XVar
            "cvp"; XInt 0; XBin OAdd (XVar "i") (XInt 1)]); XMeth (XVar "ctx") "CNFVar"
            [XVar "cvp"; XInt 0; XVar "i"]]]]];
        SContinue
      ] [];
      SAssign [LVar "ncnf"] [XMeth (XVar "ncnf") "AppendConsistency" [XLst [XLst [XNeg
          (XMeth (XVar "ctx") "CNFVar" [XVar "sv"; XVar "idx"; XInt 0]); XNeg (XMeth (XVar
          "ctx") "CNFVar" [XVar "cvp"; XInt 0; XBin OAdd (XVar "i") (XInt 1)]); XMeth
          (XVar "ctx") "CNFVar" [XVar "cvp"; XInt 0; XVar "i"]]; XLst [XNeg (XMeth (XVar
          "ctx") "CNFVar" [XVar "cvp"; XInt 0; XVar "i"]); XMeth (XVar "ctx") "CNFVar"
          [XVar "sv"; XVar "idx"; XInt 0]]; XLst [XNeg (XMeth (XVar "ctx") "CNFVar" [XVar
          "cvp"; XInt 0; XVar "i"]); XMeth (XVar "ctx") "CNFVar" [XVar "cvp"; XInt 0; XBin
          OAdd (XVar "i") (XInt 1)]]]]]
    ];
    SReturn [XMeth (XVar "ncnf") "AppendSemantics" [XLst [XLst [XMeth (XVar "ctx")
        "CNFVar" [XVar "cvp"; XInt 0; XInt 0]]]]; XNil]
  ].

(* query/extensions/hepr/util.go:13-25 *)
Definition src_hepr_validatePref : func :=
  mkFunc ["pref"; "dim"] [] false
  [
    SAssign [LNew "seen"] [XMake (XBool false) (XVar "dim")];
    SRange "_" "i" (XVar "pref") [
      SIf [] (XBin OOr (XBin OLt (XVar "i") (XInt 0)) (XBin OGe (XVar "i") (XVar "dim")))
          [
        SReturn [XPrim "fmt.Errorf" [XStr "Preference feature index out of range '%d'";
            XVar "i"]]
      ] [];
      SIf [] (XIdx (XVar "seen") (XVar "i")) [
        SReturn [XPrim "fmt.Errorf" [XStr "Invalid duplicate preference '%d'"; XVar "i"]]
      ] [];
      SAssign [LIdx (LVar "seen") (XVar "i")] [XBool true]
    ];
    SReturn [XNil]
  ].

(* query/extensions/hepr/util.go:28-36 *)
Definition src_hepr_prefVar : func :=
  mkFunc ["pref"] [] false
  [
    SAssign [LNew "sb"] [XStc "strings.Builder" [("buf", XStr "")]];
    SRange "_" "idx" (XVar "pref") [
      SExpr (XMeth (XVar "sb") "WriteString" [XPrim "strconv.Itoa" [XVar "idx"]])
    ];
    SReturn [XMeth (XVar "sb") "String" []]
  ].

(* query/extensions/hepr/var_const.go:25-109 *)
Definition src_hepr_VarConst_Encoding : func :=
  mkFunc ["d"; "ctx"] [] false
  [
    SIf [] (XBin OEq (XVar "ctx") (XNil)) [
      SReturn [XStc "cnf.CNF" [("tv", XInt 0); ("sClauses", XLst []); ("cClauses", XLst
          [])]; XPrim "errors.New" [XStr "Invalid encoding with nil ctx"]]
    ] [];
    SIf [] (XBin OEq (XSel (XVar "d") "FeaturePreferenceRankVarGen") (XNil)) [
      SReturn [XStc "cnf.CNF" [("tv", XInt 0); ("sClauses", XLst []); ("cClauses", XLst
          [])]; XPrim "errors.New" [XStr "Invalid nil var generation function"]]
    ] [];
    SIf [SAssign [LNew "err"] [XCall "hepr.validatePref" [XSel (XVar "d") "Preference";
        XMeth (XVar "ctx") "Dim" []]]] (XBin ONe (XVar "err") (XNil)) [
      SReturn [XStc "cnf.CNF" [("tv", XInt 0); ("sClauses", XLst []); ("cClauses", XLst
          [])]; XVar "err"]
    ] [];
    SAssign [LNew "dim"] [XMeth (XVar "ctx") "Dim" []];
    SAssign [LNew "sv"] [XMeth (XVar "ctx") "ScopeVar" [XSel (XVar "d") "I1"]];
    SAssign [LNew "sc"; LBlank] [XMeth (XVar "ctx") "ScopeConst" [XSel (XVar "d") "I2"]];
    SAssign [LNew "vcp"] [XDyn (XSel (XVar "d") "FeaturePreferenceRankVarGen") [XCall
        "hepr.prefVar" [XSel (XVar "d") "Preference"]; XVar "sv"; XMeth (XVar "sc")
        "AsString" []]];
    SIf [SAssign [LNew "err"] [XCall "query.ValidateConstsDim" [XVar "dim"; XLst [XVar
        "sc"]]]] (XBin ONe (XVar "err") (XNil)) [
      SReturn [XStc "cnf.CNF" [("tv", XInt 0); ("sClauses", XLst []); ("cClauses", XLst
          [])]; XVar "err"]
    ] [];
    SAssign [LNew "ncnf"] [XStc "cnf.CNF" [("tv", XInt 0); ("sClauses", XLst []);
        ("cClauses", XLst [])]];
    SAssign [LNew "plen"] [XLen (XSel (XVar "d") "Preference")];
    SAssign [LNew "idx"] [XIdx (XSel (XVar "d") "Preference") (XBin OSub (XVar "plen")
        (XInt 1))];
    SIf [] (XBin ONe (XIdx (XSel (XVar "sc") "Val") (XVar "idx")) (XInt 0)) [
      SAssign [LVar "ncnf"] [XMeth (XVar "ncnf") "AppendConsistency" [XLst [XLst [XNeg
          (XMeth (XVar "ctx") "CNFVar" [XVar "vcp"; XInt 0; XBin OSub (XVar "plen") (XInt
          1)]); XNeg (XMeth (XVar "ctx") "CNFVar" [XVar "sv"; XVar "idx"; XInt 0])]; XLst
          [XMeth (XVar "ctx") "CNFVar" [XVar "vcp"; XInt 0; XBin OSub (XVar "plen") (XInt
          1)]; XMeth (XVar "ctx") "CNFVar" [XVar "sv"; XVar "idx"; XInt 0]]]]]
    ] [
      SAssign [LVar "ncnf"] [XMeth (XVar "ncnf") "AppendConsistency" [XLst [XLst [XMeth
          (XVar "ctx") "CNFVar" [XVar "vcp"; XInt 0; XBin OSub (XVar "plen") (XInt 1)]]]]]
    ];
    SFor [SAssign [LNew "i"] [XBin OSub (XVar "plen") (XInt 2)]] (XBin OGe (XVar "i")
        (XInt 0)) [SAssign [LVar "i"] [XBin OSub (XVar "i") (XInt 1)]] [
      SAssign [LVar "idx"] [XIdx (XSel (XVar "d") "Preference") (XVar "i")];
      SIf [] (XBin ONe (XIdx (XSel (XVar "sc") "Val") (XVar "idx")) (XInt 0)) [
        SAssign [LVar "ncnf"] [XMeth (XVar "ncnf") "AppendConsistency" [XLst [XLst [XMeth
            (XVar "ctx") "CNFVar" [XVar "sv"; XVar "idx"; XInt 0]; XNeg (XMeth (XVar
            "ctx") "CNFVar" [XVar "vcp"; XInt 0; XBin OAdd (XVar "i") (XInt 1)]); XMeth
            (XVar "ctx") "CNFVar" [XVar "vcp"; XInt 0; XVar "i"]]; XLst [XNeg (XMeth (XVar
            "ctx") "CNFVar" [XVar "vcp"; XInt 0; XVar "i"]); XNeg (XMeth (XVar "ctx")
            "CNFVar" [XVar "sv"; XVar "idx"; XInt 0])]; XLst [XNeg (XMeth (XVar "ctx")
            "CNFVar" [XVar "vcp"; XInt 0; XVar "i"]); XMeth (XVar "ctx") "CNFVar" [XVar
            "vcp"; XInt 0; XBin OAdd (XVar "i") (XInt 1)]]]]];
        SContinue
      ] [];
      SAssign [LVar "ncnf"] [XMeth (XVar "ncnf") "AppendConsistency" [XLst [XLst [XNeg
          (XMeth (XVar "ctx") "CNFVar" [XVar "sv"; XVar "idx"; XInt 0]); XMeth (XVar
          "ctx") "CNFVar" [XVar "vcp"; XInt 0; XBin OAdd (XVar "i") (XInt 1)]; XNeg (XMeth
          (XVar "ctx") "CNFVar" [XVar "vcp"; XInt 0; XVar "i"])]; XLst [XMeth (XVar "ctx")
          "CNFVar" [XVar "vcp"; XInt 0; XVar "i"]; XMeth (XVar "ctx") "CNFVar" [XVar "sv";
          XVar "idx"; XInt 0]]; XLst [XMeth (XVar "ctx") "CNFVar" [XVar "vcp"; XInt 0;
          XVar "i"]; XNeg (XMeth (XVar "ctx") "CNFVar" [XVar "vcp"; XInt 0; XBin OAdd
          (XVar "i") (XInt 1)])]]]]
    ];
    SReturn [XMeth (XVar "ncnf") "AppendSemantics" [XLst [XLst [XMeth (XVar "ctx")
        "CNFVar" [XVar "vcp"; XInt 0; XInt 0]]]]; XNil]
  ].

(* query/extensions/hepr/var_var.go:25-101 *)
Definition src_hepr_VarVar_Encoding : func :=
  mkFunc ["d"; "ctx"] [] false
  [
    SIf [] (XBin OEq (XVar "ctx") (XNil)) [
      SReturn [XStc "cnf.CNF" [("tv", XInt 0); ("sClauses", XLst []); ("cClauses", XLst
          [])]; XPrim "errors.New" [XStr "Invalid encoding with nil ctx"]]
    ] [];
    SIf [] (XBin OEq (XSel (XVar "d") "FeaturePreferenceRankVarGen") (XNil)) [
      SReturn [XStc "cnf.CNF" [("tv", XInt 0); ("sClauses", XLst []); ("cClauses", XLst
          [])]; XPrim "errors.New" [XStr "Invalid nil var generation function"]]
    ] [];
    SIf [SAssign [LNew "err"] [XCall "hepr.validatePref" [XSel (XVar "d") "Preference";
        XMeth (XVar "ctx") "Dim" []]]] (XBin ONe (XVar "err") (XNil)) [
      SReturn [XStc "cnf.CNF" [("tv", XInt 0); ("sClauses", XLst []); ("cClauses", XLst
          [])]; XVar "err"]
    ] [];
    SAssign [LNew "sv1"] [XMeth (XVar "ctx") "ScopeVar" [XSel (XVar "d") "I1"]];
    SAssign [LNew "sv2"] [XMeth (XVar "ctx") "ScopeVar" [XSel (XVar "d") "I2"]];
    SAssign [LNew "vvp"] [XDyn (XSel (XVar "d") "FeaturePreferenceRankVarGen") [XCall
        "hepr.prefVar" [XSel (XVar "d") "Preference"]; XVar "sv1"; XVar "sv2"]];
    SAssign [LNew "ncnf"] [XStc "cnf.CNF" [("tv", XInt 0); ("sClauses", XLst []);
        ("cClauses", XLst [])]];
    SAssign [LNew "plen"] [XLen (XSel (XVar "d") "Preference")];
    SAssign [LNew "idx"] [XIdx (XSel (XVar "d") "Preference") (XBin OSub (XVar "plen")
        (XInt 1))];
    SAssign [LVar "ncnf"] [XMeth (XVar "ncnf") "AppendConsistency" [XLst [XLst [XNeg
        (XMeth (XVar "ctx") "CNFVar" [XVar "vvp"; XInt 0; XBin OSub (XVar "plen") (XInt
        1)]); XNeg (XMeth (XVar "ctx") "CNFVar" [XVar "sv1"; XVar "idx"; XInt 0]); XMeth
        (XVar "ctx") "CNFVar" [XVar "sv2"; XVar "idx"; XInt 0]]; XLst [XMeth (XVar "ctx")
        "CNFVar" [XVar "sv1"; XVar "idx"; XInt 0]; XMeth (XVar "ctx") "CNFVar" [XVar
        "vvp"; XInt 0; XBin OSub (XVar "plen") (XInt 1)]]; XLst [XNeg (XMeth (XVar "ctx")
        "CNFVar" [XVar "sv2"; XVar "idx"; XInt 0]); XMeth (XVar "ctx") "CNFVar" [XVar
        "vvp"; XInt 0; XBin OSub (XVar "plen") (XInt 1)]]]]];
    SFor [SAssign [LNew "i"] [XBin OSub (XVar "plen") (XInt 2)]] (XBin OGe (XVar "i")
        (XInt 0)) [SAssign [LVar "i"] [XBin OSub (XVar "i") (XInt 1)]] [
      SAssign [LVar "idx"] [XIdx (XSel (XVar "d") "Preference") (XVar "i")];
      SAssign [LVar "ncnf"] [XMeth (XVar "ncnf") "AppendConsistency" [XLst [XLst [XNeg
          (XMeth (XVar "ctx") "CNFVar" [XVar "sv1"; XVar "idx"; XInt 0]); XMeth (XVar
          "ctx") "CNFVar" [XVar "sv2"; XVar "idx"; XInt 0]; XNeg (XMeth (XVar "ctx")
          "CNFVar" [XVar "vvp"; XInt 0; XVar "i"])]; XLst [XNeg (XMeth (XVar "ctx")
          "CNFVar" [XVar "sv1"; XVar "idx"; XInt 0]); XNeg (XMeth (XVar "ctx") "CNFVar"
          [XVar "vvp"; XInt 0; XVar "i"]); XMeth (XVar "ctx") "CNFVar" [XVar "vvp"; XInt
          0; XBin OAdd (XVar "i") (XInt 1)]]; XLst [XMeth (XVar "ctx") "CNFVar" [XVar
          "sv2"; XVar "idx"; XInt 0]; XNeg (XMeth (XVar "ctx") "CNFVar" [XVar "vvp"; XInt
          0; XVar "i"]); XMeth (XVar "ctx") "CNFVar" [XVar "vvp"; XInt 0; XBin OAdd (XVar
          "i") (XInt 1)]]; XLst [XMeth (XVar "ctx") "CNFVar" [XVar "sv1"; XVar "idx"; XInt
          0]; XNeg (XMeth (XVar "ctx") "CNFVar" [XVar "sv2"; XVar "idx"; XInt 0]); XMeth
          (XVar "ctx") "CNFVar" [XVar "vvp"; XInt 0; XVar "i"]]; XLst [XMeth (XVar "ctx")
          "CNFVar" [XVar "sv1"; XVar "idx"; XInt 0]; XMeth (XVar "ctx") "CNFVar" [XVar
          "vvp"; XInt 0; XVar "i"]; XNeg (XMeth (XVar "ctx") "CNFVar" [XVar "vvp"; XInt 0;
          XBin OAdd (XVar "i") (XInt 1)])]; XLst [XNeg (XMeth (XVar "ctx") "CNFVar" [XVar
          "sv2"; XVar "idx"; XInt 0]); XMeth (XVar "ctx") "CNFVar" [XVar "vvp"; XInt 0;
          XVar "i"]; XNeg (XMeth (XVar "ctx") "CNFVar" [XVar "vvp"; XInt 0; XBin OAdd
          (XVar "i") (XInt 1)])]]]]
    ];
    SReturn [XMeth (XVar "ncnf") "AppendSemantics" [XLst [XLst [XMeth (XVar "ctx")
        "CNFVar" [XVar "vvp"; XInt 0; XInt 0]]]]; XNil]
  ].

(* query/extensions/leh/const_const_const.go:21-57 *)
Definition src_leh_ConstConstConst_Encoding : func :=
  mkFunc ["l"; "ctx"] [] false
  [
    SIf [] (XBin OEq (XVar "ctx") (XNil)) [
      SReturn [XStc "cnf.CNF" [("tv", XInt 0); ("sClauses", XLst []); ("cClauses", XLst
          [])]; XPrim "errors.New" [XStr "Invalid encoding with nil ctx"]]
    ] [];
    SAssign [LNew "sc1"; LBlank] [XMeth (XVar "ctx") "ScopeConst" [XSel (XVar "l") "I1"]];
    SAssign [LNew "sc2"; LBlank] [XMeth (XVar "ctx") "ScopeConst" [XSel (XVar "l") "I2"]];
    SAssign [LNew "sc3"; LBlank] [XMeth (XVar "ctx") "ScopeConst" [XSel (XVar "l") "I3"]];
    SIf [SAssign [LNew "err"] [XCall "query.ValidateConstsDim" [XMeth (XVar "ctx") "Dim"
        []; XLst [XVar "sc1"; XVar "sc2"; XVar "sc3"]]]] (XBin ONe (XVar "err") (XNil)) [
      SReturn [XStc "cnf.CNF" [("tv", XInt 0); ("sClauses", XLst []); ("cClauses", XLst
          [])]; XVar "err"]
    ] [];
    SIf [] (XBin OOr (XBin OOr (XNot (XMeth (XVar "sc1") "IsFull" [])) (XNot (XMeth (XVar
        "sc2") "IsFull" []))) (XNot (XMeth (XVar "sc3") "IsFull" []))) [
      SReturn [XGlob "cnf.FalseCNF"; XNil]
    ] [];
    SAssign [LNew "hd12"; LNew "err"] [XCall "leh.hammingDistCC" [XVar "sc1"; XVar "sc2"]];
    SIf [] (XBin ONe (XVar "err") (XNil)) [
      SReturn [XStc "cnf.CNF" [("tv", XInt 0); ("sClauses", XLst []); ("cClauses", XLst
          [])]; XNil]
    ] [];
    SAssign [LNew "hd13"; LVar "err"] [XCall "leh.hammingDistCC" [XVar "sc1"; XVar "sc3"]];
    SIf [] (XBin ONe (XVar "err") (XNil)) [
      SReturn [XStc "cnf.CNF" [("tv", XInt 0); ("sClauses", XLst []); ("cClauses", XLst
          [])]; XNil]
    ] [];
    SIf [] (XBin OGt (XVar "hd12") (XVar "hd13")) [
      SReturn [XGlob "cnf.FalseCNF"; XNil]
    ] [];
    SReturn [XGlob "cnf.TrueCNF"; XNil]
  ].

(* query/extensions/leh/const_const_var.go:27-74 *)
Definition src_leh_ConstConstVar_Encoding : func :=
  mkFunc ["l"; "ctx"] [] false
  [
    SIf [] (XBin OEq (XVar "ctx") (XNil)) [
      SReturn [XStc "cnf.CNF" [("tv", XInt 0); ("sClauses", XLst []); ("cClauses", XLst
          [])]; XPrim "errors.New" [XStr "Invalid encoding with nil ctx"]]
    ] [];
    SIf [] (XBin OEq (XSel (XVar "l") "HammingDistanceVarGen") (XNil)) [
      SReturn [XStc "cnf.CNF" [("tv", XInt 0); ("sClauses", XLst []); ("cClauses", XLst
          [])]; XPrim "errors.New" [XStr "Invalid nil var generation function"]]
    ] [];
    SAssign [LNew "dim"] [XMeth (XVar "ctx") "Dim" []];
    SAssign [LNew "sc1"; LBlank] [XMeth (XVar "ctx") "ScopeConst" [XSel (XVar "l") "I1"]];
    SAssign [LNew "sc2"; LBlank] [XMeth (XVar "ctx") "ScopeConst" [XSel (XVar "l") "I2"]];
    SAssign [LNew "sv"] [XMeth (XVar "ctx") "ScopeVar" [XSel (XVar "l") "I3"]];
    SAssign [LNew "vc1hd"] [XDyn (XSel (XVar "l") "HammingDistanceVarGen") [XVar "sv";
        XMeth (XVar "sc1") "AsString" []]];
    SIf [SAssign [LNew "err"] [XCall "query.ValidateConstsDim" [XVar "dim"; XLst [XVar
        "sc1"; XVar "sc2"]]]] (XBin ONe (XVar "err") (XNil)) [
      SReturn [XStc "cnf.CNF" [("tv", XInt 0); ("sClauses", XLst []); ("cClauses", XLst
          [])]; XVar "err"]
    ] [];
    SIf [] (XBin OOr (XNot (XMeth (XVar "sc1") "IsFull" [])) (XNot (XMeth (XVar "sc2")
        "IsFull" []))) [
      SReturn [XGlob "cnf.FalseCNF"; XNil]
    ] [];
    SAssign [LNew "cchd"; LNew "err"] [XCall "leh.hammingDistCC" [XVar "sc1"; XVar "sc2"]];
    SIf [] (XBin ONe (XVar "err") (XNil)) [
      SReturn [XStc "cnf.CNF" [("tv", XInt 0); ("sClauses", XLst []); ("cClauses", XLst
          [])]; XVar "err"]
    ] [];
    SIf [] (XBin OEq (XVar "cchd") (XInt 0)) [
      SReturn [XGlob "cnf.TrueCNF"; XNil]
    ] [];
    SAssign [LNew "ncnf"] [XCall "cnf.FromClauses" [XCall "leh.varFullClauses" [XVar "sv";
        XVar "ctx"]]];
    SAssign [LNew "hdClauses"; LVar "err"] [XCall "leh.hammingDistVC" [XVar "sv"; XVar
        "sc1"; XVar "vc1hd"; XVar "ctx"]];
    SIf [] (XBin ONe (XVar "err") (XNil)) [
      SReturn [XStc "cnf.CNF" [("tv", XInt 0); ("sClauses", XLst []); ("cClauses", XLst
          [])]; XVar "err"]
    ] [];
    SAssign [LVar "ncnf"] [XMeth (XVar "ncnf") "AppendConsistency" [XVar "hdClauses"]];
    SFor [SAssign [LNew "i"] [XInt 0]] (XBin OLt (XVar "i") (XVar "cchd")) [SAssign [LVar
        "i"] [XBin OAdd (XVar "i") (XInt 1)]] [
      SAssign [LVar "ncnf"] [XMeth (XVar "ncnf") "AppendSemantics" [XLst [XLst [XNeg
          (XMeth (XVar "ctx") "CNFVar" [XVar "vc1hd"; XBin OSub (XVar "dim") (XInt 1);
          XVar "i"])]]]]
    ];
    SReturn [XVar "ncnf"; XNil]
  ].

(* query/extensions/leh/const_var_const.go:27-74 *)
Definition src_leh_ConstVarConst_Encoding : func :=
  mkFunc ["l"; "ctx"] [] false
  [
    SIf [] (XBin OEq (XVar "ctx") (XNil)) [
      SReturn [XStc "cnf.CNF" [("tv", XInt 0); ("sClauses", XLst []); ("cClauses", XLst
          [])]; XPrim "errors.New" [XStr "Invalid encoding with nil ctx"]]
    ] [];
    SIf [] (XBin OEq (XSel (XVar "l") "HammingDistanceVarGen") (XNil)) [
      SReturn [XStc "cnf.CNF" [("tv", XInt 0); ("sClauses", XLst []); ("cClauses", XLst
          [])]; XPrim "errors.New" [XStr "Invalid nil var generation function"]]
    ] [];
    SAssign [LNew "dim"] [XMeth (XVar "ctx") "Dim" []];
    SAssign [LNew "sc1"; LBlank] [XMeth (XVar "ctx") "ScopeConst" [XSel (XVar "l") "I1"]];
    SAssign [LNew "sc2"; LBlank] [XMeth (XVar "ctx") "ScopeConst" [XSel (XVar "l") "I3"]];
    SAssign [LNew "sv"] [XMeth (XVar "ctx") "ScopeVar" [XSel (XVar "l") "I2"]];
    SAssign [LNew "vc1hd"] [XDyn (XSel (XVar "l") "HammingDistanceVarGen") [XVar "sv";
        XMeth (XVar "sc2") "AsString" []]];
    SIf [SAssign [LNew "err"] [XCall "query.ValidateConstsDim" [XVar "dim"; XLst [XVar
        "sc1"; XVar "sc2"]]]] (XBin ONe (XVar "err") (XNil)) [
      SReturn [XStc "cnf.CNF" [("tv", XInt 0); ("sClauses", XLst []); ("cClauses", XLst
          [])]; XVar "err"]
    ] [];
    SIf [] (XBin OOr (XNot (XMeth (XVar "sc1") "IsFull" [])) (XNot (XMeth (XVar "sc2")
        "IsFull" []))) [
      SReturn [XGlob "cnf.FalseCNF"; XNil]
    ] [];
    SAssign [LNew "cchd"; LNew "err"] [XCall "leh.hammingDistCC" [XVar "sc1"; XVar "sc2"]];
    SIf [] (XBin ONe (XVar "err") (XNil)) [
      SReturn [XStc "cnf.CNF" [("tv", XInt 0); ("sClauses", XLst []); ("cClauses", XLst
          [])]; XVar "err"]
    ] [];
    SIf [] (XBin OEq (XVar "cchd") (XVar "dim")) [
      SReturn [XGlob "cnf.TrueCNF"; XNil]
    ] [];
    SAssign [LNew "ncnf"] [XCall "cnf.FromClauses" [XCall "leh.varFullClauses" [XVar "sv";
        XVar "ctx"]]];
    SAssign [LNew "hdClauses"; LVar "err"] [XCall "leh.hammingDistVC" [XVar "sv"; XVar
        "sc1"; XVar "vc1hd"; XVar "ctx"]];
    SIf [] (XBin ONe (XVar "err") (XNil)) [
      SReturn [XStc "cnf.CNF" [("tv", XInt 0); ("sClauses", XLst []); ("cClauses", XLst
          [])]; XVar "err"]
    ] [];
    SAssign [LVar "ncnf"] [XMeth (XVar "ncnf") "AppendConsistency" [XVar "hdClauses"]];
    SFor [SAssign [LNew "i"] [XBin OAdd (XVar "cchd") (XInt 1)]] (XBin OLe (XVar "i")
        (XVar "dim")) [SAssign [LVar "i"] [XBin OAdd (XVar "i") (XInt 1)]] [
      SAssign [LVar "ncnf"] [XMeth (XVar "ncnf") "AppendSemantics" [XLst [XLst [XNeg
          (XMeth (XVar "ctx") "CNFVar" [XVar "vc1hd"; XBin OSub (XVar "dim") (XInt 1);
          XVar "i"])]]]]
    ];
    SReturn [XVar "ncnf"; XNil]
  ].

(* query/extensions/leh/const_var_var.go:26-78 *)
Definition src_leh_ConstVarVar_Encoding : func :=
  mkFunc ["l"; "ctx"] [] false
  [
    SIf [] (XBin OEq (XVar "ctx") (XNil)) [
      SReturn [XStc "cnf.CNF" [("tv", XInt 0); ("sClauses", XLst []); ("cClauses", XLst
          [])]; XPrim "errors.New" [XStr "Invalid encoding with nil ctx"]]
    ] [];
    SIf [] (XBin OEq (XSel (XVar "l") "HammingDistanceVarGen") (XNil)) [
      SReturn [XStc "cnf.CNF" [("tv", XInt 0); ("sClauses", XLst []); ("cClauses", XLst
          [])]; XPrim "errors.New" [XStr "Invalid nil var generation function"]]
    ] [];
    SAssign [LNew "dim"] [XMeth (XVar "ctx") "Dim" []];
    SAssign [LNew "sc"; LBlank] [XMeth (XVar "ctx") "ScopeConst" [XSel (XVar "l") "I1"]];
    SAssign [LNew "sv1"] [XMeth (XVar "ctx") "ScopeVar" [XSel (XVar "l") "I2"]];
    SAssign [LNew "sv2"] [XMeth (XVar "ctx") "ScopeVar" [XSel (XVar "l") "I3"]];
    SAssign [LNew "v1chd"] [XDyn (XSel (XVar "l") "HammingDistanceVarGen") [XVar "sv1";
        XMeth (XVar "sc") "AsString" []]];
    SAssign [LNew "v2chd"] [XDyn (XSel (XVar "l") "HammingDistanceVarGen") [XVar "sv2";
        XMeth (XVar "sc") "AsString" []]];
    SIf [SAssign [LNew "err"] [XCall "query.ValidateConstsDim" [XMeth (XVar "ctx") "Dim"
        []; XLst [XVar "sc"]]]] (XBin ONe (XVar "err") (XNil)) [
      SReturn [XStc "cnf.CNF" [("tv", XInt 0); ("sClauses", XLst []); ("cClauses", XLst
          [])]; XVar "err"]
    ] [];
    SIf [] (XNot (XMeth (XVar "sc") "IsFull" [])) [
      SReturn [XGlob "cnf.FalseCNF"; XNil]
    ] [];
    SAssign [LNew "ncnf"] [XStc "cnf.CNF" [("tv", XInt 0); ("sClauses", XLst []);
        ("cClauses", XLst [])]];
    SAssign [LVar "ncnf"] [XMeth (XVar "ncnf") "AppendSemantics" [XCall
        "leh.varFullClauses" [XVar "sv1"; XVar "ctx"]]];
    SAssign [LVar "ncnf"] [XMeth (XVar "ncnf") "AppendSemantics" [XCall
        "leh.varFullClauses" [XVar "sv2"; XVar "ctx"]]];
    SAssign [LNew "v1chdClauses"; LNew "err"] [XCall "leh.hammingDistVC" [XVar "sv1"; XVar
        "sc"; XVar "v1chd"; XVar "ctx"]];
    SIf [] (XBin ONe (XVar "err") (XNil)) [
      SReturn [XStc "cnf.CNF" [("tv", XInt 0); ("sClauses", XLst []); ("cClauses", XLst
          [])]; XVar "err"]
    ] [];
    SAssign [LNew "v2chdClauses"; LVar "err"] [XCall "leh.hammingDistVC" [XVar "sv2"; XVar
        "sc"; XVar "v2chd"; XVar "ctx"]];
    SIf [] (XBin ONe (XVar "err") (XNil)) [
      SReturn [XStc "cnf.CNF" [("tv", XInt 0); ("sClauses", XLst []); ("cClauses", XLst
          [])]; XVar "err"]
    ] [];
    SAssign [LVar "ncnf"] [XMeth (XVar "ncnf") "AppendConsistency" [XVar "v1chdClauses"]];
    SAssign [LVar "ncnf"] [XMeth (XVar "ncnf") "AppendConsistency" [XVar "v2chdClauses"]];
    SFor [SAssign [LNew "i"] [XInt 1]] (XBin OLe (XVar "i") (XVar "dim")) [SAssign [LVar
        "i"] [XBin OAdd (XVar "i") (XInt 1)]] [
      SFor [SAssign [LNew "j"] [XInt 0]] (XBin OLt (XVar "j") (XVar "i")) [SAssign [LVar
          "j"] [XBin OAdd (XVar "j") (XInt 1)]] [
        SAssign [LVar "ncnf"] [XMeth (XVar "ncnf") "AppendSemantics" [XLst [XLst [XNeg
            (XMeth (XVar "ctx") "CNFVar" [XVar "v1chd"; XBin OSub (XVar "dim") (XInt 1);
            XVar "i"]); XNeg (XMeth (XVar "ctx") "CNFVar" [XVar "v2chd"; XBin OSub (XVar
            "dim") (XInt 1); XVar "j"])]]]]
      ]
    ];
    SReturn [XVar "ncnf"; XNil]
  ].

(* query/extensions/leh/utils.go:12-30 *)
Definition src_leh_hammingDistCC : func :=
  mkFunc ["c1"; "c2"] [] false
  [
    SIf [] (XBin ONe (XLen (XSel (XVar "c1") "Val")) (XLen (XSel (XVar "c2") "Val"))) [
      SReturn [XInt 0; XPrim "fmt.Errorf" [XStr "Mismatched constant dimensions: %d - %d";
          XLen (XSel (XVar "c1") "Val"); XLen (XSel (XVar "c2") "Val")]]
    ] [];
    SAssign [LNew "hd"] [XInt 0];
    SRange "i" "ft" (XSel (XVar "c1") "Val") [
      SIf [] (XBin ONe (XVar "ft") (XIdx (XSel (XVar "c2") "Val") (XVar "i"))) [
        SAssign [LVar "hd"] [XBin OAdd (XVar "hd") (XInt 1)]
      ] []
    ];
    SReturn [XVar "hd"; XNil]
  ].

(* query/extensions/leh/utils.go:35-107 *)
Definition src_leh_hammingDistVC : func :=
  mkFunc ["v"; "c"; "vcd"; "ctx"] [] false
  [
    SAssign [LNew "dim"] [XMeth (XVar "ctx") "Dim" []];
    SAssign [LNew "clauses"] [XLst []];
    SIf [SAssign [LNew "err"] [XCall "query.ValidateConstsDim" [XMeth (XVar "ctx") "Dim"
        []; XLst [XVar "c"]]]] (XBin ONe (XVar "err") (XNil)) [
      SReturn [XVar "clauses"; XVar "err"]
    ] [];
    SAssign [LVar "clauses"] [XApp (XVar "clauses") [XLst [XNeg (XMeth (XVar "ctx")
        "CNFVar" [XVar "vcd"; XInt 0; XInt 0]); XMeth (XVar "ctx") "CNFVar" [XVar "v";
        XInt 0; XIdx (XSel (XVar "c") "Val") (XInt 0)]]; XLst [XNeg (XMeth (XVar "ctx")
        "CNFVar" [XVar "v"; XInt 0; XIdx (XSel (XVar "c") "Val") (XInt 0)]); XMeth (XVar
        "ctx") "CNFVar" [XVar "vcd"; XInt 0; XInt 0]]; XLst [XNeg (XMeth (XVar "ctx")
        "CNFVar" [XVar "vcd"; XInt 0; XInt 1]); XNeg (XMeth (XVar "ctx") "CNFVar" [XVar
        "v"; XInt 0; XIdx (XSel (XVar "c") "Val") (XInt 0)])]; XLst [XMeth (XVar "ctx")
        "CNFVar" [XVar "v"; XInt 0; XIdx (XSel (XVar "c") "Val") (XInt 0)]; XMeth (XVar
        "ctx") "CNFVar" [XVar "vcd"; XInt 0; XInt 1]]]];
    SFor [SAssign [LNew "i"] [XInt 1]] (XBin OLt (XVar "i") (XVar "dim")) [SAssign [LVar
        "i"] [XBin OAdd (XVar "i") (XInt 1)]] [
      SAssign [LVar "clauses"] [XApp (XVar "clauses") [XLst [XNeg (XMeth (XVar "ctx")
          "CNFVar" [XVar "vcd"; XVar "i"; XInt 0]); XMeth (XVar "ctx") "CNFVar" [XVar
          "vcd"; XBin OSub (XVar "i") (XInt 1); XInt 0]]; XLst [XNeg (XMeth (XVar "ctx")
          "CNFVar" [XVar "vcd"; XVar "i"; XInt 0]); XMeth (XVar "ctx") "CNFVar" [XVar "v";
          XVar "i"; XIdx (XSel (XVar "c") "Val") (XVar "i")]]; XLst [XNeg (XMeth (XVar
          "ctx") "CNFVar" [XVar "vcd"; XBin OSub (XVar "i") (XInt 1); XInt 0]); XNeg
          (XMeth (XVar "ctx") "CNFVar" [XVar "v"; XVar "i"; XIdx (XSel (XVar "c") "Val")
          (XVar "i")]); XMeth (XVar "ctx") "CNFVar" [XVar "vcd"; XVar "i"; XInt 0]]]];
      SFor [SAssign [LNew "j"] [XInt 1]] (XBin OLe (XVar "j") (XBin OAdd (XVar "i") (XInt
          1))) [SAssign [LVar "j"] [XBin OAdd (XVar "j") (XInt 1)]] [
        SAssign [LVar "clauses"] [XApp (XVar "clauses") [XLst [XNeg (XMeth (XVar "ctx")
            "CNFVar" [XVar "vcd"; XVar "i"; XVar "j"]); XMeth (XVar "ctx") "CNFVar" [XVar
            "vcd"; XBin OSub (XVar "i") (XInt 1); XBin OSub (XVar "j") (XInt 1)]; XMeth
            (XVar "ctx") "CNFVar" [XVar "v"; XVar "i"; XIdx (XSel (XVar "c") "Val") (XVar
            "i")]]; XLst [XNeg (XMeth (XVar "ctx") "CNFVar" [XVar "vcd"; XVar "i"; XVar
            "j"]); XMeth (XVar "ctx") "CNFVar" [XVar "vcd"; XBin OSub (XVar "i") (XInt 1);
            XVar "j"]; XNeg (XMeth (XVar "ctx") "CNFVar" [XVar "v"; XVar "i"; XIdx (XSel
            (XVar "c") "Val") (XVar "i")])]; XLst [XMeth (XVar "ctx") "CNFVar" [XVar
            "vcd"; XVar "i"; XVar "j"]; XNeg (XMeth (XVar "ctx") "CNFVar" [XVar "vcd";
            XBin OSub (XVar "i") (XInt 1); XBin OSub (XVar "j") (XInt 1)]); XMeth (XVar
            "ctx") "CNFVar" [XVar "v"; XVar "i"; XIdx (XSel (XVar "c") "Val") (XVar
            "i")]]; XLst [XMeth (XVar "ctx") "CNFVar" [XVar "vcd"; XVar "i"; XVar "j"];
            XNeg (XMeth (XVar "ctx") "CNFVar" [XVar "vcd"; XBin OSub (XVar "i") (XInt 1);
            XVar "j"]); XNeg (XMeth (XVar "ctx") "CNFVar" [XVar "v"; XVar "i"; XIdx (XSel
            (XVar "c") "Val") (XVar "i")])]]]
      ]
    ];
    SFor [SAssign [LNew "i"] [XInt 0]] (XBin OLt (XVar "i") (XVar "dim")) [SAssign [LVar
        "i"] [XBin OAdd (XVar "i") (XInt 1)]] [
      SFor [SAssign [LNew "j"] [XBin OAdd (XVar "i") (XInt 2)]] (XBin OLe (XVar "j") (XVar
          "dim")) [SAssign [LVar "j"] [XBin OAdd (XVar "j") (XInt 1)]] [
        SAssign [LVar "clauses"] [XApp (XVar "clauses") [XLst [XNeg (XMeth (XVar "ctx")
            "CNFVar" [XVar "vcd"; XVar "i"; XVar "j"])]]]
      ]
    ];
    SReturn [XVar "clauses"; XNil]
  ].

(* query/extensions/leh/utils.go:113-176 *)
Definition src_leh_hammingDistVV : func :=
  mkFunc ["vd"; "vfeq"; "ctx"] [] false
  [
    SAssign [LNew "dim"] [XMeth (XVar "ctx") "Dim" []];
    SAssign [LNew "clauses"] [XLst []];
    SAssign [LVar "clauses"] [XApp (XVar "clauses") [XLst [XNeg (XMeth (XVar "ctx")
        "CNFVar" [XVar "vd"; XInt 0; XInt 0]); XMeth (XVar "ctx") "CNFVar" [XVar "vfeq";
        XInt 0; XInt 0]]; XLst [XNeg (XMeth (XVar "ctx") "CNFVar" [XVar "vfeq"; XInt 0;
        XInt 0]); XMeth (XVar "ctx") "CNFVar" [XVar "vd"; XInt 0; XInt 0]]; XLst [XNeg
        (XMeth (XVar "ctx") "CNFVar" [XVar "vd"; XInt 0; XInt 1]); XNeg (XMeth (XVar
        "ctx") "CNFVar" [XVar "vfeq"; XInt 0; XInt 0])]; XLst [XMeth (XVar "ctx") "CNFVar"
        [XVar "vfeq"; XInt 0; XInt 0]; XMeth (XVar "ctx") "CNFVar" [XVar "vd"; XInt 0;
        XInt 1]]]];
    SFor [SAssign [LNew "i"] [XInt 1]] (XBin OLt (XVar "i") (XVar "dim")) [SAssign [LVar
        "i"] [XBin OAdd (XVar "i") (XInt 1)]] [
      SAssign [LVar "clauses"] [XApp (XVar "clauses") [XLst [XNeg (XMeth (XVar "ctx")
          "CNFVar" [XVar "vd"; XVar "i"; XInt 0]); XMeth (XVar "ctx") "CNFVar" [XVar "vd";
          XBin OSub (XVar "i") (XInt 1); XInt 0]]; XLst [XNeg (XMeth (XVar "ctx") "CNFVar"
          [XVar "vd"; XVar "i"; XInt 0]); XMeth (XVar "ctx") "CNFVar" [XVar "vfeq"; XVar
          "i"; XInt 0]]; XLst [XNeg (XMeth (XVar "ctx") "CNFVar" [XVar "vd"; XBin OSub
          (XVar "i") (XInt 1); XInt 0]); XNeg (XMeth (XVar "ctx") "CNFVar" [XVar "vfeq";
          XVar "i"; XInt 0]); XMeth (XVar "ctx") "CNFVar" [XVar "vd"; XVar "i"; XInt
          0]]]];
      SFor [SAssign [LNew "j"] [XInt 1]] (XBin OLe (XVar "j") (XBin OAdd (XVar "i") (XInt
          1))) [SAssign [LVar "j"] [XBin OAdd (XVar "j") (XInt 1)]] [
        SAssign [LVar "clauses"] [XApp (XVar "clauses") [XLst [XNeg (XMeth (XVar "ctx")
            "CNFVar" [XVar "vd"; XVar "i"; XVar "j"]); XMeth (XVar "ctx") "CNFVar" [XVar
            "vd"; XBin OSub (XVar "i") (XInt 1); XBin OSub (XVar "j") (XInt 1)]; XMeth
            (XVar "ctx") "CNFVar" [XVar "vfeq"; XVar "i"; XInt 0]]; XLst [XNeg (XMeth
            (XVar "ctx") "CNFVar" [XVar "vd"; XVar "i"; XVar "j"]); XMeth (XVar "ctx")
            "CNFVar" [XVar "vd"; XBin OSub (XVar "i") (XInt 1); XVar "j"]; XNeg (XMeth
            (XVar "ctx") "CNFVar" [XVar "vfeq"; XVar "i"; XInt 0])]; XLst [XMeth (XVar
            "ctx") "CNFVar" [XVar "vd"; XVar "i"; XVar "j"]; XNeg (XMeth (XVar "ctx")
            "CNFVar" [XVar "vd"; XBin OSub (XVar "i") (XInt 1); XBin OSub (XVar "j") (XInt
            1)]); XMeth (XVar "ctx") "CNFVar" [XVar "vfeq"; XVar "i"; XInt 0]]; XLst
            [XMeth (XVar "ctx") "CNFVar" [XVar "vd"; XVar "i"; XVar "j"]; XNeg (XMeth
            (XVar "ctx") "CNFVar" [XVar "vd"; XBin OSub (XVar "i") (XInt 1); XVar "j"]);
            XNeg (XMeth (XVar "ctx") "CNFVar" [XVar "vfeq"; XVar "i"; XInt 0])]]]
      ]
    ];
    SFor [SAssign [LNew "i"] [XInt 0]] (XBin OLt (XVar "i") (XVar "dim")) [SAssign [LVar
        "i"] [XBin OAdd (XVar "i") (XInt 1)]] [
      SFor [SAssign [LNew "j"] [XBin OAdd (XVar "i") (XInt 2)]] (XBin OLe (XVar "j") (XVar
          "dim")) [SAssign [LVar "j"] [XBin OAdd (XVar "j") (XInt 1)]] [
        SAssign [LVar "clauses"] [XApp (XVar "clauses") [XLst [XNeg (XMeth (XVar "ctx")
            "CNFVar" [XVar "vd"; XVar "i"; XVar "j"])]]]
      ]
    ];
    SReturn [XVar "clauses"]
  ].

(* query/extensions/leh/utils.go:180-191 *)
Definition src_leh_varFullClauses : func :=
  mkFunc ["v"; "ctx"] [] false
  [
    SAssign [LNew "clauses"] [XLst []];
    SFor [SAssign [LNew "i"] [XInt 0]] (XBin OLt (XVar "i") (XMeth (XVar "ctx") "Dim" []))
        [SAssign [LVar "i"] [XBin OAdd (XVar "i") (XInt 1)]] [
      SAssign [LVar "clauses"] [XApp (XVar "clauses") [XLst [XNeg (XMeth (XVar "ctx")
          "CNFVar" [XVar "v"; XVar "i"; XInt 0])]]]
    ];
    SReturn [XVar "clauses"]
  ].

(* query/extensions/leh/utils.go:197-230 *)
Definition src_leh_fullVarEqualClauses : func :=
  mkFunc ["v1"; "v2"; "vfeq"; "ctx"] [] false
  [
    SAssign [LNew "clauses"] [XLst []];
    SFor [SAssign [LNew "i"] [XInt 0]] (XBin OLt (XVar "i") (XMeth (XVar "ctx") "Dim" []))
        [SAssign [LVar "i"] [XBin OAdd (XVar "i") (XInt 1)]] [
      SAssign [LVar "clauses"] [XApp (XVar "clauses") [XLst [XNeg (XMeth (XVar "ctx")
          "CNFVar" [XVar "v1"; XVar "i"; XInt 2]); XNeg (XMeth (XVar "ctx") "CNFVar" [XVar
          "v2"; XVar "i"; XInt 2]); XMeth (XVar "ctx") "CNFVar" [XVar "vfeq"; XVar "i";
          XInt 0]]; XLst [XNeg (XMeth (XVar "ctx") "CNFVar" [XVar "v1"; XVar "i"; XInt
          2]); XNeg (XMeth (XVar "ctx") "CNFVar" [XVar "v2"; XVar "i"; XInt 1]); XNeg
          (XMeth (XVar "ctx") "CNFVar" [XVar "vfeq"; XVar "i"; XInt 0])]; XLst [XNeg
          (XMeth (XVar "ctx") "CNFVar" [XVar "v1"; XVar "i"; XInt 1]); XNeg (XMeth (XVar
          "ctx") "CNFVar" [XVar "v2"; XVar "i"; XInt 2]); XNeg (XMeth (XVar "ctx")
          "CNFVar" [XVar "vfeq"; XVar "i"; XInt 0])]; XLst [XNeg (XMeth (XVar "ctx")
          "CNFVar" [XVar "v1"; XVar "i"; XInt 1]); XNeg (XMeth (XVar "ctx") "CNFVar" [XVar
          "v2"; XVar "i"; XInt 1]); XMeth (XVar "ctx") "CNFVar" [XVar "vfeq"; XVar "i";
          XInt 0]]]]
    ];
    SReturn [XVar "clauses"]
  ].

(* query/extensions/leh/var_const_const.go:27-76 *)
Definition src_leh_VarConstConst_Encoding : func :=
  mkFunc ["l"; "ctx"] [] false
  [
    SIf [] (XBin OEq (XVar "ctx") (XNil)) [
      SReturn [XStc "cnf.CNF" [("tv", XInt 0); ("sClauses", XLst []); ("cClauses", XLst
          [])]; XPrim "errors.New" [XStr "Invalid encoding with nil ctx"]]
    ] [];
    SIf [] (XBin OEq (XSel (XVar "l") "HammingDistanceVarGen") (XNil)) [
      SReturn [XStc "cnf.CNF" [("tv", XInt 0); ("sClauses", XLst []); ("cClauses", XLst
          [])]; XPrim "errors.New" [XStr "Invalid nil var generation function"]]
    ] [];
    SAssign [LNew "dim"] [XMeth (XVar "ctx") "Dim" []];
    SAssign [LNew "sc1"; LBlank] [XMeth (XVar "ctx") "ScopeConst" [XSel (XVar "l") "I2"]];
    SAssign [LNew "sc2"; LBlank] [XMeth (XVar "ctx") "ScopeConst" [XSel (XVar "l") "I3"]];
    SAssign [LNew "sv"] [XMeth (XVar "ctx") "ScopeVar" [XSel (XVar "l") "I1"]];
    SAssign [LNew "vc1hd"] [XDyn (XSel (XVar "l") "HammingDistanceVarGen") [XVar "sv";
        XMeth (XVar "sc1") "AsString" []]];
    SAssign [LNew "vc2hd"] [XDyn (XSel (XVar "l") "HammingDistanceVarGen") [XVar "sv";
        XMeth (XVar "sc2") "AsString" []]];
    SIf [SAssign [LNew "err"] [XCall "query.ValidateConstsDim" [XVar "dim"; XLst [XVar
        "sc1"; XVar "sc2"]]]] (XBin ONe (XVar "err") (XNil)) [
      SReturn [XStc "cnf.CNF" [("tv", XInt 0); ("sClauses", XLst []); ("cClauses", XLst
          [])]; XVar "err"]
    ] [];
    SIf [] (XBin OOr (XNot (XMeth (XVar "sc1") "IsFull" [])) (XNot (XMeth (XVar "sc2")
        "IsFull" []))) [
      SReturn [XGlob "cnf.FalseCNF"; XNil]
    ] [];
    SAssign [LNew "ncnf"] [XCall "cnf.FromClauses" [XCall "leh.varFullClauses" [XVar "sv";
        XVar "ctx"]]];
    SAssign [LNew "hd1Clauses"; LNew "err"] [XCall "leh.hammingDistVC" [XVar "sv"; XVar
        "sc1"; XVar "vc1hd"; XVar "ctx"]];
    SIf [] (XBin ONe (XVar "err") (XNil)) [
      SReturn [XStc "cnf.CNF" [("tv", XInt 0); ("sClauses", XLst []); ("cClauses", XLst
          [])]; XVar "err"]
    ] [];
    SAssign [LNew "hd2Clauses"; LVar "err"] [XCall "leh.hammingDistVC" [XVar "sv"; XVar
        "sc2"; XVar "vc2hd"; XVar "ctx"]];
    SIf [] (XBin ONe (XVar "err") (XNil)) [
      SReturn [XStc "cnf.CNF" [("tv", XInt 0); ("sClauses", XLst []); ("cClauses", XLst
          [])]; XVar "err"]
    ] [];
    SAssign [LVar "ncnf"] [XMeth (XVar "ncnf") "AppendConsistency" [XVar "hd1Clauses"]];
    SAssign [LVar "ncnf"] [XMeth (XVar "ncnf") "AppendConsistency" [XVar "hd2Clauses"]];
    SFor [SAssign [LNew "i"] [XInt 1]] (XBin OLe (XVar "i") (XVar "dim")) [SAssign [LVar
        "i"] [XBin OAdd (XVar "i") (XInt 1)]] [
      SFor [SAssign [LNew "j"] [XInt 0]] (XBin OLt (XVar "j") (XVar "i")) [SAssign [LVar
          "j"] [XBin OAdd (XVar "j") (XInt 1)]] [
        SAssign [LVar "ncnf"] [XMeth (XVar "ncnf") "AppendSemantics" [XLst [XLst [XNeg
            (XMeth (XVar "ctx") "CNFVar" [XVar "vc1hd"; XBin OSub (XVar "dim") (XInt 1);
            XVar "i"]); XNeg (XMeth (XVar "ctx") "CNFVar" [XVar "vc2hd"; XBin OSub (XVar
            "dim") (XInt 1); XVar "j"])]]]]
      ]
    ];
    SReturn [XVar "ncnf"; XNil]
  ].

(* query/extensions/leh/var_const_var.go:31-81 *)
Definition src_leh_VarConstVar_Encoding : func :=
  mkFunc ["l"; "ctx"] [] false
  [
    SIf [] (XBin OEq (XVar "ctx") (XNil)) [
      SReturn [XStc "cnf.CNF" [("tv", XInt 0); ("sClauses", XLst []); ("cClauses", XLst
          [])]; XPrim "errors.New" [XStr "Invalid encoding with nil ctx"]]
    ] [];
    SIf [] (XBin OOr (XBin OEq (XSel (XVar "l") "HammingDistanceVarGen") (XNil)) (XBin OEq
        (XSel (XVar "l") "EqualFeatureVarGen") (XNil))) [
      SReturn [XStc "cnf.CNF" [("tv", XInt 0); ("sClauses", XLst []); ("cClauses", XLst
          [])]; XPrim "errors.New" [XStr "Invalid nil var generation function"]]
    ] [];
    SAssign [LNew "dim"] [XMeth (XVar "ctx") "Dim" []];
    SAssign [LNew "sc"; LBlank] [XMeth (XVar "ctx") "ScopeConst" [XSel (XVar "l") "I2"]];
    SAssign [LNew "sv1"] [XMeth (XVar "ctx") "ScopeVar" [XSel (XVar "l") "I1"]];
    SAssign [LNew "sv2"] [XMeth (XVar "ctx") "ScopeVar" [XSel (XVar "l") "I3"]];
    SAssign [LNew "v1chd"] [XDyn (XSel (XVar "l") "HammingDistanceVarGen") [XVar "sv1";
        XMeth (XVar "sc") "AsString" []]];
    SAssign [LNew "vvhd"] [XDyn (XSel (XVar "l") "HammingDistanceVarGen") [XVar "sv1";
        XVar "sv2"]];
    SAssign [LNew "vvef"] [XDyn (XSel (XVar "l") "EqualFeatureVarGen") [XVar "sv1"; XVar
        "sv2"]];
    SIf [SAssign [LNew "err"] [XCall "query.ValidateConstsDim" [XVar "dim"; XLst [XVar
        "sc"]]]] (XBin ONe (XVar "err") (XNil)) [
      SReturn [XStc "cnf.CNF" [("tv", XInt 0); ("sClauses", XLst []); ("cClauses", XLst
          [])]; XVar "err"]
    ] [];
    SIf [] (XNot (XMeth (XVar "sc") "IsFull" [])) [
      SReturn [XGlob "cnf.FalseCNF"; XNil]
    ] [];
    SAssign [LNew "ncnf"] [XStc "cnf.CNF" [("tv", XInt 0); ("sClauses", XLst []);
        ("cClauses", XLst [])]];
    SAssign [LVar "ncnf"] [XMeth (XVar "ncnf") "AppendSemantics" [XCall
        "leh.varFullClauses" [XVar "sv1"; XVar "ctx"]]];
    SAssign [LVar "ncnf"] [XMeth (XVar "ncnf") "AppendSemantics" [XCall
        "leh.varFullClauses" [XVar "sv2"; XVar "ctx"]]];
    SAssign [LNew "v1chdClauses"; LNew "err"] [XCall "leh.hammingDistVC" [XVar "sv1"; XVar
        "sc"; XVar "v1chd"; XVar "ctx"]];
    SIf [] (XBin ONe (XVar "err") (XNil)) [
      SReturn [XStc "cnf.CNF" [("tv", XInt 0); ("sClauses", XLst []); ("cClauses", XLst
          [])]; XVar "err"]
    ] [];
    SAssign [LVar "ncnf"] [XMeth (XVar "ncnf") "AppendConsistency" [XCall
        "leh.fullVarEqualClauses" [XVar "sv1"; XVar "sv2"; XVar "vvef"; XVar "ctx"]]];
    SAssign [LVar "ncnf"] [XMeth (XVar "ncnf") "AppendConsistency" [XCall
        "leh.hammingDistVV" [XVar "vvhd"; XVar "vvef"; XVar "ctx"]]];
    SAssign [LVar "ncnf"] [XMeth (XVar "ncnf") "AppendConsistency" [XVar "v1chdClauses"]];
    SFor [SAssign [LNew "i"] [XInt 1]] (XBin OLe (XVar "i") (XVar "dim")) [SAssign [LVar
        "i"] [XBin OAdd (XVar "i") (XInt 1)]] [
      SFor [SAssign [LNew "j"] [XInt 0]] (XBin OLt (XVar "j") (XVar "i")) [SAssign [LVar
          "j"] [XBin OAdd (XVar "j") (XInt 1)]] [
        SAssign [LVar "ncnf"] [XMeth (XVar "ncnf") "AppendSemantics" [XLst [XLst [XNeg
            (XMeth (XVar "ctx") "CNFVar" [XVar "v1chd"; XBin OSub (XVar "dim") (XInt 1);
            XVar "i"]); XNeg (XMeth (XVar "ctx") "CNFVar" [XVar "vvhd"; XBin OSub (XVar
            "dim") (XInt 1); XVar "j"])]]]]
      ]
    ];
    SReturn [XVar "ncnf"; XNil]
  ].

(* query/extensions/leh/var_var_const.go:28-77 *)
Definition src_leh_VarVarConst_Encoding : func :=
  mkFunc ["l"; "ctx"] [] false
  [
    SIf [] (XBin OEq (XVar "ctx") (XNil)) [
      SReturn [XStc "cnf.CNF" [("tv", XInt 0); ("sClauses", XLst []); ("cClauses", XLst
          [])]; XPrim "errors.New" [XStr "Invalid encoding with nil ctx"]]
    ] [];
    SIf [] (XBin OOr (XBin OEq (XSel (XVar "l") "HammingDistanceVarGen") (XNil)) (XBin OEq
        (XSel (XVar "l") "EqualFeatureVarGen") (XNil))) [
      SReturn [XStc "cnf.CNF" [("tv", XInt 0); ("sClauses", XLst []); ("cClauses", XLst
          [])]; XPrim "errors.New" [XStr "Invalid nil var generation function"]]
    ] [];
    SAssign [LNew "dim"] [XMeth (XVar "ctx") "Dim" []];
    SAssign [LNew "sv1"] [XMeth (XVar "ctx") "ScopeVar" [XSel (XVar "l") "I1"]];
    SAssign [LNew "sv2"] [XMeth (XVar "ctx") "ScopeVar" [XSel (XVar "l") "I2"]];
    SAssign [LNew "sc"; LBlank] [XMeth (XVar "ctx") "ScopeConst" [XSel (XVar "l") "I3"]];
    SAssign [LNew "v1chd"] [XDyn (XSel (XVar "l") "HammingDistanceVarGen") [XVar "sv1";
        XMeth (XVar "sc") "AsString" []]];
    SAssign [LNew "vvhd"] [XDyn (XSel (XVar "l") "HammingDistanceVarGen") [XVar "sv1";
        XVar "sv2"]];
    SAssign [LNew "vvef"] [XDyn (XSel (XVar "l") "EqualFeatureVarGen") [XVar "sv1"; XVar
        "sv2"]];
    SIf [SAssign [LNew "err"] [XCall "query.ValidateConstsDim" [XMeth (XVar "ctx") "Dim"
        []; XLst [XVar "sc"]]]] (XBin ONe (XVar "err") (XNil)) [
      SReturn [XStc "cnf.CNF" [("tv", XInt 0); ("sClauses", XLst []); ("cClauses", XLst
          [])]; XVar "err"]
    ] [];
    SIf [] (XNot (XMeth (XVar "sc") "IsFull" [])) [
      SReturn [XGlob "cnf.FalseCNF"; XNil]
    ] [];
    SAssign [LNew "ncnf"] [XStc "cnf.CNF" [("tv", XInt 0); ("sClauses", XLst []);
        ("cClauses", XLst [])]];
    SAssign [LVar "ncnf"] [XMeth (XVar "ncnf") "AppendSemantics" [XCall
        "leh.varFullClauses" [XVar "sv1"; XVar "ctx"]]];
    SAssign [LVar "ncnf"] [XMeth (XVar "ncnf") "AppendSemantics" [XCall
        "leh.varFullClauses" [XVar "sv2"; XVar "ctx"]]];
    SAssign [LNew "v1chdClauses"; LNew "err"] [XCall "leh.hammingDistVC" [XVar "sv1"; XVar
        "sc"; XVar "v1chd"; XVar "ctx"]];
    SIf [] (XBin ONe (XVar "err") (XNil)) [
      SReturn [XStc "cnf.CNF" [("tv", XInt 0); ("sClauses", XLst []); ("cClauses", XLst
          [])]; XVar "err"]
    ] [];
    SAssign [LVar "ncnf"] [XMeth (XVar "ncnf") "AppendConsistency" [XCall
        "leh.fullVarEqualClauses" [XVar "sv1"; XVar "sv2"; XVar "vvef"; XVar "ctx"]]];
    SAssign [LVar "ncnf"] [XMeth (XVar "ncnf") "AppendConsistency" [XCall
        "leh.hammingDistVV" [XVar "vvhd"; XVar "vvef"; XVar "ctx"]]];
    SAssign [LVar "ncnf"] [XMeth (XVar "ncnf") "AppendConsistency" [XVar "v1chdClauses"]];
    SFor [SAssign [LNew "i"] [XInt 1]] (XBin OLe (XVar "i") (XVar "dim")) [SAssign [LVar
        "i"] [XBin OAdd (XVar "i") (XInt 1)]] [
      SFor [SAssign [LNew "j"] [XInt 0]] (XBin OLt (XVar "j") (XVar "i")) [SAssign [LVar
          "j"] [XBin OAdd (XVar "j") (XInt 1)]] [
        SAssign [LVar "ncnf"] [XMeth (XVar "ncnf") "AppendSemantics" [XLst [XLst [XNeg
            (XMeth (XVar "ctx") "CNFVar" [XVar "vvhd"; XBin OSub (XVar "dim") (XInt 1);
            XVar "i"]); XNeg (XMeth (XVar "ctx") "CNFVar" [XVar "v1chd"; XBin OSub (XVar
            "dim") (XInt 1); XVar "j"])]]]]
      ]
    ];
    SReturn [XVar "ncnf"; XNil]
  ].

(* query/extensions/leh/var_var_var.go:30-71 *)
Definition src_leh_VarVarVar_Encoding : func :=
  mkFunc ["l"; "ctx"] [] false
  [
    SIf [] (XBin OEq (XVar "ctx") (XNil)) [
      SReturn [XStc "cnf.CNF" [("tv", XInt 0); ("sClauses", XLst []); ("cClauses", XLst
          [])]; XPrim "errors.New" [XStr "Invalid encoding with nil ctx"]]
    ] [];
    SIf [] (XBin OOr (XBin OEq (XSel (XVar "l") "HammingDistanceVarGen") (XNil)) (XBin OEq
        (XSel (XVar "l") "EqualFeatureVarGen") (XNil))) [
      SReturn [XStc "cnf.CNF" [("tv", XInt 0); ("sClauses", XLst []); ("cClauses", XLst
          [])]; XPrim "errors.New" [XStr "Invalid nil var generation function"]]
    ] [];
    SAssign [LNew "dim"] [XMeth (XVar "ctx") "Dim" []];
    SAssign [LNew "sv1"] [XMeth (XVar "ctx") "ScopeVar" [XSel (XVar "l") "I1"]];
    SAssign [LNew "sv2"] [XMeth (XVar "ctx") "ScopeVar" [XSel (XVar "l") "I2"]];
    SAssign [LNew "sv3"] [XMeth (XVar "ctx") "ScopeVar" [XSel (XVar "l") "I3"]];
    SAssign [LNew "v1v2dh"] [XDyn (XSel (XVar "l") "HammingDistanceVarGen") [XVar "sv1";
        XVar "sv2"]];
    SAssign [LNew "v1v3dh"] [XDyn (XSel (XVar "l") "HammingDistanceVarGen") [XVar "sv1";
        XVar "sv3"]];
    SAssign [LNew "v1v2ef"] [XDyn (XSel (XVar "l") "EqualFeatureVarGen") [XVar "sv1"; XVar
        "sv2"]];
    SAssign [LNew "v1v3ef"] [XDyn (XSel (XVar "l") "EqualFeatureVarGen") [XVar "sv1"; XVar
        "sv3"]];
    SAssign [LNew "ncnf"] [XStc "cnf.CNF" [("tv", XInt 0); ("sClauses", XLst []);
        ("cClauses", XLst [])]];
    SAssign [LVar "ncnf"] [XMeth (XVar "ncnf") "AppendSemantics" [XCall
        "leh.varFullClauses" [XVar "sv1"; XVar "ctx"]]];
    SAssign [LVar "ncnf"] [XMeth (XVar "ncnf") "AppendSemantics" [XCall
        "leh.varFullClauses" [XVar "sv2"; XVar "ctx"]]];
    SAssign [LVar "ncnf"] [XMeth (XVar "ncnf") "AppendSemantics" [XCall
        "leh.varFullClauses" [XVar "sv3"; XVar "ctx"]]];
    SAssign [LVar "ncnf"] [XMeth (XVar "ncnf") "AppendConsistency" [XCall
        "leh.fullVarEqualClauses" [XVar "sv1"; XVar "sv2"; XVar "v1v2ef"; XVar "ctx"]]];
    SAssign [LVar "ncnf"] [XMeth (XVar "ncnf") "AppendConsistency" [XCall
        "leh.fullVarEqualClauses" [XVar "sv1"; XVar "sv3"; XVar "v1v3ef"; XVar "ctx"]]];
    SAssign [LVar "ncnf"] [XMeth (XVar "ncnf") "AppendConsistency" [XCall
        "leh.hammingDistVV" [XVar "v1v2dh"; XVar "v1v2ef"; XVar "ctx"]]];
    SAssign [LVar "ncnf"] [XMeth (XVar "ncnf") "AppendConsistency" [XCall
        "leh.hammingDistVV" [XVar "v1v3dh"; XVar "v1v3ef"; XVar "ctx"]]];
    SFor [SAssign [LNew "i"] [XInt 1]] (XBin OLe (XVar "i") (XVar "dim")) [SAssign [LVar
        "i"] [XBin OAdd (XVar "i") (XInt 1)]] [
      SFor [SAssign [LNew "j"] [XInt 0]] (XBin OLt (XVar "j") (XVar "i")) [SAssign [LVar
          "j"] [XBin OAdd (XVar "j") (XInt 1)]] [
        SAssign [LVar "ncnf"] [XMeth (XVar "ncnf") "AppendSemantics" [XLst [XLst [XNeg
            (XMeth (XVar "ctx") "CNFVar" [XVar "v1v2dh"; XBin OSub (XVar "dim") (XInt 1);
            XVar "i"]); XNeg (XMeth (XVar "ctx") "CNFVar" [XVar "v1v3dh"; XBin OSub (XVar
            "dim") (XInt 1); XVar "j"])]]]]
      ]
    ];
    SReturn [XVar "ncnf"; XNil]
  ].

(* query/logop/and.go:23-43 *)
Definition src_logop_And_Encoding : func :=
  mkFunc ["a"; "ctx"] [("ncnf", XStc "cnf.CNF" [("tv", XInt 0); ("sClauses", XLst []); ("cClauses", XLst [])]); ("err", XNil)] false
  [
    SDefer [
      SIf [] (XBin ONe (XVar "err") (XNil)) [
        SAssign [LVar "err"] [XPrim "fmt.Errorf" [XStr "And: %w"; XVar "err"]]
      ] []
    ];
    SIf [] (XBin OEq (XSel (XVar "a") "Q1") (XNil)) [
      SReturn [XStc "cnf.CNF" [("tv", XInt 0); ("sClauses", XLst []); ("cClauses", XLst
          [])]; XPrim "errors.New" [XStr "Invalid encoding of nil child (1)"]]
    ] [];
    SIf [] (XBin OEq (XSel (XVar "a") "Q2") (XNil)) [
      SReturn [XStc "cnf.CNF" [("tv", XInt 0); ("sClauses", XLst []); ("cClauses", XLst
          [])]; XPrim "errors.New" [XStr "Invalid encoding of nil child (2)"]]
    ] [];
    SIf [] (XBin OEq (XVar "ctx") (XNil)) [
      SReturn [XStc "cnf.CNF" [("tv", XInt 0); ("sClauses", XLst []); ("cClauses", XLst
          [])]; XPrim "errors.New" [XStr "Invalid encoding with nil ctx"]]
    ] [];
    SAssign [LVar "ncnf"; LVar "err"] [XMeth (XVar "a") "buildEncoding" [XVar "ctx"]];
    SReturn [XVar "ncnf"; XVar "err"]
  ].

(* query/logop/and.go:45-57 *)
Definition src_logop_And_buildEncoding : func :=
  mkFunc ["a"; "ctx"] [] false
  [
    SAssign [LNew "cnf1"; LNew "err"] [XMeth (XSel (XVar "a") "Q1") "Encoding" [XVar
        "ctx"]];
    SIf [] (XBin ONe (XVar "err") (XNil)) [
      SReturn [XStc "cnf.CNF" [("tv", XInt 0); ("sClauses", XLst []); ("cClauses", XLst
          [])]; XPrim "fmt.Errorf" [XStr "Q1: %w"; XVar "err"]]
    ] [];
    SAssign [LNew "cnf2"; LVar "err"] [XMeth (XSel (XVar "a") "Q2") "Encoding" [XVar
        "ctx"]];
    SIf [] (XBin ONe (XVar "err") (XNil)) [
      SReturn [XStc "cnf.CNF" [("tv", XInt 0); ("sClauses", XLst []); ("cClauses", XLst
          [])]; XPrim "fmt.Errorf" [XStr "Q2: %w"; XVar "err"]]
    ] [];
    SReturn [XMeth (XVar "cnf1") "Conjunction" [XVar "cnf2"]; XNil]
  ].

(* query/logop/forallguarded.go:41-63 *)
Definition src_logop_newNodeAsValuesIter : func :=
  mkFunc ["dim"; "nodes"] [] false
  [
    SAssign [LNew "iter"] [XStc "logop.nodeAsValuesIter" [("t", XNil); ("nodes", XLst []);
        ("walk", XLst []); ("cp", XInt 0)]];
    SIf [] (XBin OEq (XLen (XVar "nodes")) (XInt 0)) [
      SReturn [XNil; XVar "iter"; XPrim "errors.New" [XStr
          "Invalid iteration over empty model"]]
    ] [];
    SRange "_" "n" (XVar "nodes") [
      SIf [SAssign [LNew "err"] [XCall "logop.validateNode" [XVar "n"; XVar "dim"; XLen
          (XVar "nodes")]]] (XBin ONe (XVar "err") (XNil)) [
        SReturn [XNil; XVar "iter"; XVar "err"]
      ] []
    ];
    SAssign [LNew "t"] [XNew (XMake (XInt 0) (XVar "dim"))];
    SAssign [LSel (LVar "iter") "t"] [XVar "t"];
    SAssign [LSel (LVar "iter") "nodes"] [XVar "nodes"];
    SAssign [LSel (LVar "iter") "walk"] [XMake (XStc "logop.walkInfo" [("prev", XInt 0);
        ("visited", XBool false)]) (XLen (XVar "nodes"))];
    SReturn [XVar "t"; XVar "iter"; XNil]
  ].

(* query/logop/forallguarded.go:67-89 *)
Definition src_logop_validateNode : func :=
  mkFunc ["n"; "dim"; "nlen"] [] false
  [
    SIf [] (XMeth (XVar "n") "IsLeaf" []) [
      SReturn [XNil]
    ] [];
    SIf [] (XBin OOr (XBin OLt (XSel (XVar "n") "Feat") (XInt 0)) (XBin OGe (XSel (XVar
        "n") "Feat") (XVar "dim"))) [
      SReturn [XPrim "fmt.Errorf" [XStr "Node's feature %d is out of range [0, %d]"; XSel
          (XVar "n") "Feat"; XBin OSub (XVar "dim") (XInt 1)]]
    ] [];
    SIf [] (XBin OOr (XBin OLt (XSel (XVar "n") "ZChild") (XInt 0)) (XBin OGe (XSel (XVar
        "n") "ZChild") (XVar "nlen"))) [
      SReturn [XPrim "fmt.Errorf" [XStr "Node's ZChild out of bounds %d"; XSel (XVar "n")
          "ZChild"]]
    ] [];
    SIf [] (XBin OOr (XBin OLt (XSel (XVar "n") "OChild") (XInt 0)) (XBin OGe (XSel (XVar
        "n") "OChild") (XVar "nlen"))) [
      SReturn [XPrim "fmt.Errorf" [XStr "Node's OChild out of bounds %d"; XSel (XVar "n")
          "OChild"]]
    ] [];
    SReturn [XNil]
  ].

(* query/logop/forallguarded.go:93-140 *)
Definition src_logop_nodeAsValuesIter_Next : func :=
  mkFunc ["i"] [] true
  [
    SAssign [LNew "pp"; LNew "zp"; LNew "op"] [XInt 0; XInt 0; XInt 0];
    SFor [] (XBool true) [] [
      SIf [] (XSel (XIdx (XSel (XVar "i") "walk") (XSel (XVar "i") "cp")) "visited") [
        SIf [] (XMeth (XIdx (XSel (XVar "i") "nodes") (XSel (XVar "i") "cp")) "IsLeaf" [])
            [
          SGoto "backup"
        ] [];
        SAssign [LVar "zp"] [XSel (XIdx (XSel (XVar "i") "nodes") (XSel (XVar "i") "cp"))
            "ZChild"];
        SIf [] (XNot (XSel (XIdx (XSel (XVar "i") "walk") (XVar "zp")) "visited")) [
          SAssign [LIdx (LDeref (XSel (XVar "i") "t")) (XSel (XIdx (XSel (XVar "i")
              "nodes") (XSel (XVar "i") "cp")) "Feat")] [XInt 1];
          SAssign [LVar "pp"] [XSel (XVar "i") "cp"];
          SAssign [LSel (LVar "i") "cp"] [XVar "zp"];
          SAssign [LSel (LIdx (LSel (LVar "i") "walk") (XSel (XVar "i") "cp")) "prev"]
              [XVar "pp"];
          SContinue
        ] [];
        SAssign [LVar "op"] [XSel (XIdx (XSel (XVar "i") "nodes") (XSel (XVar "i") "cp"))
            "OChild"];
        SIf [] (XNot (XSel (XIdx (XSel (XVar "i") "walk") (XVar "op")) "visited")) [
          SAssign [LIdx (LDeref (XSel (XVar "i") "t")) (XSel (XIdx (XSel (XVar "i")
              "nodes") (XSel (XVar "i") "cp")) "Feat")] [XInt 2];
          SAssign [LVar "pp"] [XSel (XVar "i") "cp"];
          SAssign [LSel (LVar "i") "cp"] [XVar "op"];
          SAssign [LSel (LIdx (LSel (LVar "i") "walk") (XSel (XVar "i") "cp")) "prev"]
              [XVar "pp"];
          SContinue
        ] [];
        SLabel "backup";
        SIf [] (XBin OEq (XSel (XVar "i") "cp") (XInt 0)) [
          SReturn [XBool false]
        ] [];
        SAssign [LSel (LVar "i") "cp"] [XSel (XIdx (XSel (XVar "i") "walk") (XSel (XVar
            "i") "cp")) "prev"];
        SAssign [LIdx (LDeref (XSel (XVar "i") "t")) (XSel (XIdx (XSel (XVar "i") "nodes")
            (XSel (XVar "i") "cp")) "Feat")] [XInt 0];
        SContinue
      ] [];
      SAssign [LSel (LIdx (LSel (LVar "i") "walk") (XSel (XVar "i") "cp")) "visited"]
          [XBool true];
      SReturn [XBool true]
    ]
  ].

(* query/logop/forallguarded.go:145-162 *)
Definition src_logop_ForAllGuarded_Encoding : func :=
  mkFunc ["f"; "ctx"] [("ncnf", XStc "cnf.CNF" [("tv", XInt 0); ("sClauses", XLst []); ("cClauses", XLst [])]); ("err", XNil)] false
  [
    SDefer [
      SIf [] (XBin ONe (XVar "err") (XNil)) [
        SAssign [LVar "err"] [XPrim "fmt.Errorf" [XStr "ForAllGuarded: %w"; XVar "err"]]
      ] []
    ];
    SIf [] (XBin OEq (XSel (XVar "f") "Q") (XNil)) [
      SReturn [XStc "cnf.CNF" [("tv", XInt 0); ("sClauses", XLst []); ("cClauses", XLst
          [])]; XPrim "errors.New" [XStr "Invalid encoding of nil child"]]
    ] [];
    SIf [] (XBin OEq (XVar "ctx") (XNil)) [
      SReturn [XStc "cnf.CNF" [("tv", XInt 0); ("sClauses", XLst []); ("cClauses", XLst
          [])]; XPrim "errors.New" [XStr "Invalid encoding with nil ctx"]]
    ] [];
    SAssign [LVar "ncnf"; LVar "err"] [XMeth (XVar "f") "buildEncoding" [XVar "ctx"]];
    SReturn [XVar "ncnf"; XVar "err"]
  ].

(* query/logop/forallguarded.go:164-200 *)
Definition src_logop_ForAllGuarded_buildEncoding : func :=
  mkFunc ["f"; "ctx"] [("ncnf", XStc "cnf.CNF" [("tv", XInt 0); ("sClauses", XLst []); ("cClauses", XLst [])]); ("err", XNil)] false
  [
    SAssign [LNew "cv"] [XNil];
    SAssign [LNew "iter"] [XStc "logop.nodeAsValuesIter" [("t", XNil); ("nodes", XLst []);
        ("walk", XLst []); ("cp", XInt 0)]];
    SAssign [LNew "icnf"] [XStc "cnf.CNF" [("tv", XInt 0); ("sClauses", XLst []);
        ("cClauses", XLst [])]];
    SExpr (XMeth (XVar "ctx") "AddScope" [XSel (XSel (XVar "f") "I") "ID"]);
    SDefer [
      SIf [SAssign [LNew "perr"] [XMeth (XVar "ctx") "PopScope" []]] (XBin ONe (XVar
          "perr") (XNil)) [
        SAssign [LVar "err"] [XPrim "errors.Join" [XVar "err"; XVar "perr"]]
      ] []
    ];
    SAssign [LNew "i"] [XInt 0];
    SAssign [LVar "cv"; LVar "iter"; LVar "err"] [XCall "logop.newNodeAsValuesIter" [XMeth
        (XVar "ctx") "Dim" []; XMeth (XVar "ctx") "Nodes" []]];
    SIf [] (XBin ONe (XVar "err") (XNil)) [
      SReturn [XVar "ncnf"; XVar "err"]
    ] [];
    SFor [] (XMeth (XVar "iter") "Next" []) [] [
      SIf [SAssign [LVar "err"] [XMeth (XVar "ctx") "SetScope" [XVar "i"; XDeref (XVar
          "cv")]]] (XBin ONe (XVar "err") (XNil)) [
        SReturn [XStc "cnf.CNF" [("tv", XInt 0); ("sClauses", XLst []); ("cClauses", XLst
            [])]; XVar "err"]
      ] [];
      SAssign [LVar "icnf"; LVar "err"] [XMeth (XSel (XVar "f") "Q") "Encoding" [XVar
          "ctx"]];
      SIf [] (XBin ONe (XVar "err") (XNil)) [
        SReturn [XStc "cnf.CNF" [("tv", XInt 0); ("sClauses", XLst []); ("cClauses", XLst
            [])]; XVar "err"]
      ] [];
      SAssign [LVar "ncnf"] [XMeth (XVar "ncnf") "Conjunction" [XVar "icnf"]];
      SAssign [LVar "i"] [XBin OAdd (XVar "i") (XInt 1)]
    ];
    SReturn [XVar "ncnf"; XVar "err"]
  ].

(* query/logop/not.go:20-37 *)
Definition src_logop_Not_Encoding : func :=
  mkFunc ["n"; "ctx"] [("ncnf", XStc "cnf.CNF" [("tv", XInt 0); ("sClauses", XLst []); ("cClauses", XLst [])]); ("err", XNil)] false
  [
    SDefer [
      SIf [] (XBin ONe (XVar "err") (XNil)) [
        SAssign [LVar "err"] [XPrim "fmt.Errorf" [XStr "Not: %w"; XVar "err"]]
      ] []
    ];
    SIf [] (XBin OEq (XSel (XVar "n") "Q") (XNil)) [
      SReturn [XStc "cnf.CNF" [("tv", XInt 0); ("sClauses", XLst []); ("cClauses", XLst
          [])]; XPrim "errors.New" [XStr "Invalid encoding of nil child"]]
    ] [];
    SIf [] (XBin OEq (XVar "ctx") (XNil)) [
      SReturn [XStc "cnf.CNF" [("tv", XInt 0); ("sClauses", XLst []); ("cClauses", XLst
          [])]; XPrim "errors.New" [XStr "Invalid encoding with nil ctx"]]
    ] [];
    SAssign [LVar "ncnf"; LVar "err"] [XMeth (XVar "n") "buildEncoding" [XVar "ctx"]];
    SReturn [XVar "ncnf"; XVar "err"]
  ].

(* query/logop/not.go:39-49 *)
Definition src_logop_Not_buildEncoding : func :=
  mkFunc ["n"; "ctx"] [] false
  [
    SAssign [LNew "ncnf"; LNew "err"] [XMeth (XSel (XVar "n") "Q") "Encoding" [XVar
        "ctx"]];
    SIf [] (XBin ONe (XVar "err") (XNil)) [
      SReturn [XStc "cnf.CNF" [("tv", XInt 0); ("sClauses", XLst []); ("cClauses", XLst
          [])]; XVar "err"]
    ] [];
    SAssign [LVar "ncnf"] [XMeth (XVar "ncnf") "Negate" [XLst [XMeth (XVar "ctx") "TopV"
        []]]];
    SExpr (XMeth (XVar "ctx") "UpdateTopV" [XMeth (XVar "ncnf") "TopV" []]);
    SReturn [XVar "ncnf"; XNil]
  ].

(* query/logop/or.go:23-43 *)
Definition src_logop_Or_Encoding : func :=
  mkFunc ["o"; "ctx"] [("ncnf", XStc "cnf.CNF" [("tv", XInt 0); ("sClauses", XLst []); ("cClauses", XLst [])]); ("err", XNil)] false
  [
    SDefer [
      SIf [] (XBin ONe (XVar "err") (XNil)) [
        SAssign [LVar "err"] [XPrim "fmt.Errorf" [XStr "Or: %w"; XVar "err"]]
      ] []
    ];
    SIf [] (XBin OEq (XSel (XVar "o") "Q1") (XNil)) [
      SReturn [XStc "cnf.CNF" [("tv", XInt 0); ("sClauses", XLst []); ("cClauses", XLst
          [])]; XPrim "errors.New" [XStr "Invalid encoding of nil child (1)"]]
    ] [];
    SIf [] (XBin OEq (XSel (XVar "o") "Q2") (XNil)) [
      SReturn [XStc "cnf.CNF" [("tv", XInt 0); ("sClauses", XLst []); ("cClauses", XLst
          [])]; XPrim "errors.New" [XStr "Invalid encoding of nil child (2)"]]
    ] [];
    SIf [] (XBin OEq (XVar "ctx") (XNil)) [
      SReturn [XStc "cnf.CNF" [("tv", XInt 0); ("sClauses", XLst []); ("cClauses", XLst
          [])]; XPrim "errors.New" [XStr "Invalid encoding with nil ctx"]]
    ] [];
    SAssign [LVar "ncnf"; LVar "err"] [XMeth (XVar "o") "buildEncoding" [XVar "ctx"]];
    SReturn [XVar "ncnf"; XVar "err"]
  ].

(* query/logop/or.go:45-71 *)
Definition src_logop_Or_buildEncoding : func :=
  mkFunc ["o"; "ctx"] [] false
  [
    SAssign [LNew "cnf1"; LNew "err"] [XMeth (XSel (XVar "o") "Q1") "Encoding" [XVar
        "ctx"]];
    SIf [] (XBin ONe (XVar "err") (XNil)) [
      SReturn [XStc "cnf.CNF" [("tv", XInt 0); ("sClauses", XLst []); ("cClauses", XLst
          [])]; XPrim "fmt.Errorf" [XStr "Q1: %w"; XVar "err"]]
    ] [];
    SAssign [LNew "cnf2"; LVar "err"] [XMeth (XSel (XVar "o") "Q2") "Encoding" [XVar
        "ctx"]];
    SIf [] (XBin ONe (XVar "err") (XNil)) [
      SReturn [XStc "cnf.CNF" [("tv", XInt 0); ("sClauses", XLst []); ("cClauses", XLst
          [])]; XPrim "fmt.Errorf" [XStr "Q2: %w"; XVar "err"]]
    ] [];
    SAssign [LVar "cnf1"] [XMeth (XVar "cnf1") "Negate" [XLst [XMeth (XVar "ctx") "TopV"
        []]]];
    SAssign [LNew "tv"] [XMeth (XVar "cnf1") "TopV" []];
    SExpr (XMeth (XVar "ctx") "UpdateTopV" [XVar "tv"]);
    SAssign [LVar "cnf2"] [XMeth (XVar "cnf2") "Negate" [XLst [XMeth (XVar "ctx") "TopV"
        []]]];
    SAssign [LVar "tv"] [XMeth (XVar "cnf2") "TopV" []];
    SExpr (XMeth (XVar "ctx") "UpdateTopV" [XVar "tv"]);
    SAssign [LNew "ncnf"] [XMeth (XMeth (XVar "cnf1") "Conjunction" [XVar "cnf2"])
        "Negate" [XLst [XMeth (XVar "ctx") "TopV" []]]];
    SExpr (XMeth (XVar "ctx") "UpdateTopV" [XMeth (XVar "ncnf") "TopV" []]);
    SReturn [XVar "ncnf"; XNil]
  ].

(* query/logop/with_var.go:22-43 *)
Definition src_logop_WithVar_Encoding : func :=
  mkFunc ["w"; "ctx"] [("ncnf", XStc "cnf.CNF" [("tv", XInt 0); ("sClauses", XLst []); ("cClauses", XLst [])]); ("err", XNil)] false
  [
    SDefer [
      SIf [] (XBin ONe (XVar "err") (XNil)) [
        SAssign [LVar "err"] [XPrim "fmt.Errorf" [XStr "WithVar: %w"; XVar "err"]]
      ] []
    ];
    SIf [] (XBin OEq (XSel (XVar "w") "Q") (XNil)) [
      SReturn [XStc "cnf.CNF" [("tv", XInt 0); ("sClauses", XLst []); ("cClauses", XLst
          [])]; XPrim "errors.New" [XStr "Invalid encoding of nil child"]]
    ] [];
    SIf [] (XBin OEq (XVar "ctx") (XNil)) [
      SReturn [XStc "cnf.CNF" [("tv", XInt 0); ("sClauses", XLst []); ("cClauses", XLst
          [])]; XPrim "errors.New" [XStr "Invalid encoding with nil ctx"]]
    ] [];
    SExpr (XMeth (XVar "ctx") "AddVar" [XSel (XVar "w") "I"]);
    SAssign [LVar "ncnf"; LVar "err"] [XMeth (XVar "w") "buildEncoding" [XVar "ctx"]];
    SIf [] (XBin ONe (XVar "err") (XNil)) [
      SReturn [XStc "cnf.CNF" [("tv", XInt 0); ("sClauses", XLst []); ("cClauses", XLst
          [])]; XVar "err"]
    ] [];
    SReturn [XVar "ncnf"; XNil]
  ].

(* query/logop/with_var.go:45-56 *)
Definition src_logop_WithVar_buildEncoding : func :=
  mkFunc ["w"; "ctx"] [] false
  [
    SAssign [LNew "icnf"] [XMeth (XVar "w") "encodeI" [XVar "ctx"]];
    SAssign [LNew "ccnf"; LNew "err"] [XMeth (XSel (XVar "w") "Q") "Encoding" [XVar
        "ctx"]];
    SIf [] (XBin ONe (XVar "err") (XNil)) [
      SReturn [XStc "cnf.CNF" [("tv", XInt 0); ("sClauses", XLst []); ("cClauses", XLst
          [])]; XVar "err"]
    ] [];
    SReturn [XMeth (XVar "icnf") "Conjunction" [XVar "ccnf"]; XNil]
  ].

(* query/logop/with_var.go:60-104 *)
Definition src_logop_WithVar_encodeI : func :=
  mkFunc ["w"; "ctx"] [] false
  [
    SAssign [LNew "ncnf"] [XStc "cnf.CNF" [("tv", XInt 0); ("sClauses", XLst []);
        ("cClauses", XLst [])]];
    SAssign [LNew "v"] [XMeth (XVar "ctx") "ScopeVar" [XSel (XVar "w") "I"]];
    SIf [] (XMeth (XVar "ctx") "CNFVarExists" [XVar "v"; XInt 0; XInt 0]) [
      SReturn [XVar "ncnf"]
    ] [];
    SAssign [LNew "reqAllFeats"] [XLst []];
    SFor [SAssign [LNew "i"] [XInt 0]] (XBin OLt (XVar "i") (XMeth (XVar "ctx") "Dim" []))
        [SAssign [LVar "i"] [XBin OAdd (XVar "i") (XInt 1)]] [
      SAssign [LVar "reqAllFeats"] [XApp (XVar "reqAllFeats") [XLst [XMeth (XVar "ctx")
          "CNFVar" [XVar "v"; XVar "i"; XInt 1]; XMeth (XVar "ctx") "CNFVar" [XVar "v";
          XVar "i"; XInt 2]; XMeth (XVar "ctx") "CNFVar" [XVar "v"; XVar "i"; XInt 0]]]]
    ];
    SAssign [LVar "ncnf"] [XMeth (XVar "ncnf") "AppendConsistency" [XVar "reqAllFeats"]];
    SFor [SAssign [LNew "i"] [XInt 0]] (XBin OLt (XVar "i") (XMeth (XVar "ctx") "Dim" []))
        [SAssign [LVar "i"] [XBin OAdd (XVar "i") (XInt 1)]] [
      SAssign [LNew "reqOnePerFeat"] [XLst [XLst [XNeg (XMeth (XVar "ctx") "CNFVar" [XVar
          "v"; XVar "i"; XInt 1]); XNeg (XMeth (XVar "ctx") "CNFVar" [XVar "v"; XVar "i";
          XInt 2])]; XLst [XNeg (XMeth (XVar "ctx") "CNFVar" [XVar "v"; XVar "i"; XInt
          1]); XNeg (XMeth (XVar "ctx") "CNFVar" [XVar "v"; XVar "i"; XInt 0])]; XLst
          [XNeg (XMeth (XVar "ctx") "CNFVar" [XVar "v"; XVar "i"; XInt 2]); XNeg (XMeth
          (XVar "ctx") "CNFVar" [XVar "v"; XVar "i"; XInt 0])]]];
      SAssign [LVar "ncnf"] [XMeth (XVar "ncnf") "AppendConsistency" [XVar
          "reqOnePerFeat"]]
    ];
    SReturn [XVar "ncnf"]
  ].

(* query/predicates/isnode/const.go:18-88 *)
Definition src_isnode_Const_Encoding : func :=
  mkFunc ["n"; "ctx"] [] false
  [
    SIf [] (XBin OEq (XVar "ctx") (XNil)) [
      SReturn [XStc "cnf.CNF" [("tv", XInt 0); ("sClauses", XLst []); ("cClauses", XLst
          [])]; XPrim "errors.New" [XStr "Invalid encoding with nil ctx"]]
    ] [];
    SAssign [LNew "sc"; LBlank] [XMeth (XVar "ctx") "ScopeConst" [XSel (XVar "n") "I"]];
    SIf [SAssign [LNew "err"] [XCall "query.ValidateConstsDim" [XMeth (XVar "ctx") "Dim"
        []; XLst [XVar "sc"]]]] (XBin ONe (XVar "err") (XNil)) [
      SReturn [XStc "cnf.CNF" [("tv", XInt 0); ("sClauses", XLst []); ("cClauses", XLst
          [])]; XVar "err"]
    ] [];
    SAssign [LNew "dim"] [XMeth (XVar "ctx") "Dim" []];
    SAssign [LNew "visited"] [XCall "isnode.newVisitRecord" [XVar "dim"; XVar "sc"]];
    SAssign [LNew "nodes"] [XMeth (XVar "ctx") "Nodes" []];
    SIf [] (XBin OEq (XLen (XVar "nodes")) (XInt 0)) [
      SReturn [XStc "cnf.CNF" [("tv", XInt 0); ("sClauses", XLst []); ("cClauses", XLst
          [])]; XPrim "errors.New" [XStr "Invalid encoding on empty model"]]
    ] [];
    SAssign [LNew "node"] [XIdx (XVar "nodes") (XInt 0)];
    SFor [] (XBool true) [] [
      SIf [] (XMeth (XVar "node") "IsLeaf" []) [
        SBreak
      ] [];
      SIf [] (XBin OOr (XBin OLt (XSel (XVar "node") "Feat") (XInt 0)) (XBin OGe (XSel
          (XVar "node") "Feat") (XVar "dim"))) [
        SReturn [XStc "cnf.CNF" [("tv", XInt 0); ("sClauses", XLst []); ("cClauses", XLst
            [])]; XPrim "fmt.Errorf" [XStr "Node's feature %d is out of range [0, %d]";
            XSel (XVar "node") "Feat"; XBin OSub (XVar "dim") (XInt 1)]]
      ] [];
      SIf [] (XBin OEq (XIdx (XSel (XVar "sc") "Val") (XSel (XVar "node") "Feat")) (XInt
          0)) [
        SBreak
      ] [];
      SAssign [LIdx (LVar "visited") (XSel (XVar "node") "Feat")] [XInt 1];
      SIf [] (XBin OEq (XIdx (XSel (XVar "sc") "Val") (XSel (XVar "node") "Feat")) (XInt
          1)) [
        SIf [] (XBin OOr (XBin OLt (XSel (XVar "node") "ZChild") (XInt 0)) (XBin OGe (XSel
            (XVar "node") "ZChild") (XLen (XVar "nodes")))) [
          SReturn [XStc "cnf.CNF" [("tv", XInt 0); ("sClauses", XLst []); ("cClauses",
              XLst [])]; XPrim "fmt.Errorf" [XStr "Node's ZChild out of bounds %d"; XSel
              (XVar "node") "ZChild"]]
        ] [];
        SAssign [LVar "node"] [XIdx (XVar "nodes") (XSel (XVar "node") "ZChild")];
        SContinue
      ] [];
      SIf [] (XBin OOr (XBin OLt (XSel (XVar "node") "OChild") (XInt 0)) (XBin OGe (XSel
          (XVar "node") "OChild") (XLen (XVar "nodes")))) [
        SReturn [XStc "cnf.CNF" [("tv", XInt 0); ("sClauses", XLst []); ("cClauses", XLst
            [])]; XPrim "fmt.Errorf" [XStr "Node's OChild out of bounds %d"; XSel (XVar
            "node") "OChild"]]
      ] [];
      SAssign [LVar "node"] [XIdx (XVar "nodes") (XSel (XVar "node") "OChild")]
    ];
    SIf [] (XCall "isnode.allFeatsVisited" [XVar "visited"]) [
      SReturn [XGlob "cnf.TrueCNF"; XNil]
    ] [];
    SReturn [XGlob "cnf.FalseCNF"; XNil]
  ].

(* query/predicates/isnode/const.go:93-105 *)
Definition src_isnode_newVisitRecord : func :=
  mkFunc ["dim"; "c"] [] false
  [
    SAssign [LNew "vr"] [XMake (XInt 0) (XVar "dim")];
    SRange "i" "ft" (XSel (XVar "c") "Val") [
      SIf [] (XBin OEq (XVar "ft") (XInt 0)) [
        SAssign [LIdx (LVar "vr") (XVar "i")] [XInt 1];
        SContinue
      ] [];
      SAssign [LIdx (LVar "vr") (XVar "i")] [XInt 0]
    ];
    SReturn [XVar "vr"]
  ].

(* query/predicates/isnode/const.go:108-116 *)
Definition src_isnode_allFeatsVisited : func :=
  mkFunc ["vr"] [] false
  [
    SAssign [LNew "sum"] [XInt 0];
    SRange "_" "val" (XVar "vr") [
      SAssign [LVar "sum"] [XBin OAdd (XVar "sum") (XVar "val")]
    ];
    SReturn [XBin OEq (XVar "sum") (XLen (XVar "vr"))]
  ].

(* query/predicates/isnode/var.go:20-96 *)
Definition src_isnode_Var_Encoding : func :=
  mkFunc ["f"; "ctx"] [] false
  [
    SIf [] (XBin OEq (XVar "ctx") (XNil)) [
      SReturn [XStc "cnf.CNF" [("tv", XInt 0); ("sClauses", XLst []); ("cClauses", XLst
          [])]; XPrim "errors.New" [XStr "Invalid encoding with nil ctx"]]
    ] [];
    SIf [] (XBin OEq (XSel (XVar "f") "ReachNodeVarGen") (XNil)) [
      SReturn [XStc "cnf.CNF" [("tv", XInt 0); ("sClauses", XLst []); ("cClauses", XLst
          [])]; XPrim "errors.New" [XStr "Invalid nil var generation function"]]
    ] [];
    SAssign [LNew "nodes"] [XMeth (XVar "ctx") "Nodes" []];
    SIf [] (XBin OEq (XLen (XVar "nodes")) (XInt 0)) [
      SReturn [XStc "cnf.CNF" [("tv", XInt 0); ("sClauses", XLst []); ("cClauses", XLst
          [])]; XPrim "errors.New" [XStr "Invalid encoding on empty model"]]
    ] [];
    SAssign [LNew "dim"] [XMeth (XVar "ctx") "Dim" []];
    SAssign [LNew "ncnf"] [XStc "cnf.CNF" [("tv", XInt 0); ("sClauses", XLst []);
        ("cClauses", XLst [])]];
    SAssign [LNew "sv"] [XMeth (XVar "ctx") "ScopeVar" [XSel (XVar "f") "I"]];
    SAssign [LNew "svReach"] [XDyn (XSel (XVar "f") "ReachNodeVarGen") [XVar "sv"]];
    SAssign [LNew "fcl"] [XLst []];
    SFor [SAssign [LNew "i"] [XInt 0]] (XBin OLt (XVar "i") (XVar "dim")) [SAssign [LVar
        "i"] [XBin OAdd (XVar "i") (XInt 1)]] [
      SAssign [LVar "fcl"] [XApp (XVar "fcl") [XLst [XMeth (XVar "ctx") "CNFVar" [XVar
          "sv"; XVar "i"; XInt 0]]]]
    ];
    SRange "i" "node" (XVar "nodes") [
      SIf [] (XMeth (XVar "node") "IsLeaf" []) [
        SContinue
      ] [];
      SAssign [LIdx (LVar "fcl") (XSel (XVar "node") "Feat")] [XApp (XIdx (XVar "fcl")
          (XSel (XVar "node") "Feat")) [XMeth (XVar "ctx") "CNFVar" [XVar "svReach"; XInt
          0; XVar "i"]]]
    ];
    SAssign [LVar "ncnf"] [XMeth (XVar "ncnf") "AppendSemantics" [XVar "fcl"]];
    SAssign [LVar "ncnf"] [XMeth (XVar "ncnf") "AppendConsistency" [XLst [XLst [XMeth
        (XVar "ctx") "CNFVar" [XVar "svReach"; XInt 0; XInt 0]]]]];
    SRange "i" "node" (XVar "nodes") [
      SIf [] (XMeth (XVar "node") "IsLeaf" []) [
        SContinue
      ] [];
      SAssign [LVar "ncnf"] [XMeth (XVar "ncnf") "AppendConsistency" [XLst [XLst [XNeg
          (XMeth (XVar "ctx") "CNFVar" [XVar "sv"; XSel (XVar "node") "Feat"; XInt 1]);
          XNeg (XMeth (XVar "ctx") "CNFVar" [XVar "svReach"; XInt 0; XVar "i"]); XMeth
          (XVar "ctx") "CNFVar" [XVar "svReach"; XInt 0; XSel (XVar "node") "ZChild"]];
          XLst [XNeg (XMeth (XVar "ctx") "CNFVar" [XVar "sv"; XSel (XVar "node") "Feat";
          XInt 2]); XNeg (XMeth (XVar "ctx") "CNFVar" [XVar "svReach"; XInt 0; XVar "i"]);
          XMeth (XVar "ctx") "CNFVar" [XVar "svReach"; XInt 0; XSel (XVar "node")
          "OChild"]]; XLst [XNeg (XMeth (XVar "ctx") "CNFVar" [XVar "svReach"; XInt 0;
          XSel (XVar "node") "OChild"]); XMeth (XVar "ctx") "CNFVar" [XVar "svReach"; XInt
          0; XVar "i"]]; XLst [XNeg (XMeth (XVar "ctx") "CNFVar" [XVar "svReach"; XInt 0;
          XSel (XVar "node") "OChild"]); XMeth (XVar "ctx") "CNFVar" [XVar "sv"; XSel
          (XVar "node") "Feat"; XInt 2]]; XLst [XNeg (XMeth (XVar "ctx") "CNFVar" [XVar
          "svReach"; XInt 0; XSel (XVar "node") "ZChild"]); XMeth (XVar "ctx") "CNFVar"
          [XVar "svReach"; XInt 0; XVar "i"]]; XLst [XNeg (XMeth (XVar "ctx") "CNFVar"
          [XVar "svReach"; XInt 0; XSel (XVar "node") "ZChild"]); XMeth (XVar "ctx")
          "CNFVar" [XVar "sv"; XSel (XVar "node") "Feat"; XInt 1]]]]]
    ];
    SReturn [XVar "ncnf"; XNil]
  ].

(* query/predicates/lel/const_const.go:20-37 *)
Definition src_lel_ConstConst_Encoding : func :=
  mkFunc ["l"; "ctx"] [] false
  [
    SIf [] (XBin OEq (XVar "ctx") (XNil)) [
      SReturn [XStc "cnf.CNF" [("tv", XInt 0); ("sClauses", XLst []); ("cClauses", XLst
          [])]; XPrim "errors.New" [XStr "Invalid encoding with nil ctx"]]
    ] [];
    SAssign [LNew "sc1"; LBlank] [XMeth (XVar "ctx") "ScopeConst" [XSel (XVar "l") "I1"]];
    SAssign [LNew "sc2"; LBlank] [XMeth (XVar "ctx") "ScopeConst" [XSel (XVar "l") "I2"]];
    SIf [SAssign [LNew "err"] [XCall "query.ValidateConstsDim" [XMeth (XVar "ctx") "Dim"
        []; XLst [XVar "sc1"; XVar "sc2"]]]] (XBin ONe (XVar "err") (XNil)) [
      SReturn [XStc "cnf.CNF" [("tv", XInt 0); ("sClauses", XLst []); ("cClauses", XLst
          [])]; XVar "err"]
    ] [];
    SIf [] (XBin OLt (XMeth (XVar "sc1") "BotCount" []) (XMeth (XVar "sc2") "BotCount"
        [])) [
      SReturn [XGlob "cnf.FalseCNF"; XNil]
    ] [];
    SReturn [XGlob "cnf.TrueCNF"; XNil]
  ].

(* query/predicates/lel/const_var.go:23-49 *)
Definition src_lel_ConstVar_Encoding : func :=
  mkFunc ["l"; "ctx"] [] false
  [
    SIf [] (XBin OEq (XVar "ctx") (XNil)) [
      SReturn [XStc "cnf.CNF" [("tv", XInt 0); ("sClauses", XLst []); ("cClauses", XLst
          [])]; XPrim "errors.New" [XStr "Invalid encoding with nil ctx"]]
    ] [];
    SIf [] (XBin OEq (XSel (XVar "l") "CountVarGen") (XNil)) [
      SReturn [XStc "cnf.CNF" [("tv", XInt 0); ("sClauses", XLst []); ("cClauses", XLst
          [])]; XPrim "errors.New" [XStr "Invalid nil var generation function"]]
    ] [];
    SAssign [LNew "sv"] [XMeth (XVar "ctx") "ScopeVar" [XSel (XVar "l") "I2"]];
    SAssign [LNew "sc"; LBlank] [XMeth (XVar "ctx") "ScopeConst" [XSel (XVar "l") "I1"]];
    SAssign [LNew "svCount"] [XDyn (XSel (XVar "l") "CountVarGen") [XVar "sv"]];
    SIf [SAssign [LNew "err"] [XCall "query.ValidateConstsDim" [XMeth (XVar "ctx") "Dim"
        []; XLst [XVar "sc"]]]] (XBin ONe (XVar "err") (XNil)) [
      SReturn [XStc "cnf.CNF" [("tv", XInt 0); ("sClauses", XLst []); ("cClauses", XLst
          [])]; XVar "err"]
    ] [];
    SAssign [LNew "ncnf"] [XStc "cnf.CNF" [("tv", XInt 0); ("sClauses", XLst []);
        ("cClauses", XLst [])]];
    SAssign [LVar "ncnf"] [XMeth (XVar "ncnf") "AppendConsistency" [XCall
        "lel.varBotCountClauses" [XVar "sv"; XVar "svCount"; XVar "ctx"]]];
    SFor [SAssign [LNew "i"] [XBin OAdd (XMeth (XVar "sc") "BotCount" []) (XInt 1)]] (XBin
        OLt (XVar "i") (XBin OAdd (XMeth (XVar "ctx") "Dim" []) (XInt 1))) [SAssign [LVar
        "i"] [XBin OAdd (XVar "i") (XInt 1)]] [
      SAssign [LVar "ncnf"] [XMeth (XVar "ncnf") "AppendSemantics" [XLst [XLst [XNeg
          (XMeth (XVar "ctx") "CNFVar" [XVar "svCount"; XBin OSub (XMeth (XVar "ctx")
          "Dim" []) (XInt 1); XVar "i"])]]]]
    ];
    SReturn [XVar "ncnf"; XNil]
  ].

(* query/predicates/lel/utils.go:11-93 *)
Definition src_lel_varBotCountClauses : func :=
  mkFunc ["v"; "cv"; "ctx"] [] false
  [
    SAssign [LNew "i"; LNew "j"] [XInt 0; XInt 0];
    SAssign [LNew "dim"] [XMeth (XVar "ctx") "Dim" []];
    SAssign [LNew "clauses"] [XLst []];
    SFor [SAssign [LVar "i"] [XInt 1]] (XBin OLt (XVar "i") (XVar "dim")) [SAssign [LVar
        "i"] [XBin OAdd (XVar "i") (XInt 1)]] [
      SAssign [LVar "clauses"] [XApp (XVar "clauses") [XLst [XNeg (XMeth (XVar "ctx")
          "CNFVar" [XVar "cv"; XVar "i"; XInt 0]); XNeg (XMeth (XVar "ctx") "CNFVar" [XVar
          "v"; XVar "i"; XInt 0])]; XLst [XNeg (XMeth (XVar "ctx") "CNFVar" [XVar "cv";
          XVar "i"; XInt 0]); XMeth (XVar "ctx") "CNFVar" [XVar "cv"; XBin OSub (XVar "i")
          (XInt 1); XInt 0]]; XLst [XNeg (XMeth (XVar "ctx") "CNFVar" [XVar "cv"; XBin
          OSub (XVar "i") (XInt 1); XInt 0]); XMeth (XVar "ctx") "CNFVar" [XVar "v"; XVar
          "i"; XInt 0]; XMeth (XVar "ctx") "CNFVar" [XVar "cv"; XVar "i"; XInt 0]]]];
      SFor [SAssign [LVar "j"] [XInt 1]] (XBin OLt (XVar "j") (XBin OAdd (XVar "i") (XInt
          2))) [SAssign [LVar "j"] [XBin OAdd (XVar "j") (XInt 1)]] [
        SAssign [LVar "clauses"] [XApp (XVar "clauses") [XLst [XNeg (XMeth (XVar "ctx")
            "CNFVar" [XVar "cv"; XVar "i"; XVar "j"]); XMeth (XVar "ctx") "CNFVar" [XVar
            "cv"; XBin OSub (XVar "i") (XInt 1); XBin OSub (XVar "j") (XInt 1)]; XNeg
            (XMeth (XVar "ctx") "CNFVar" [XVar "v"; XVar "i"; XInt 0])]; XLst [XMeth (XVar
            "ctx") "CNFVar" [XVar "cv"; XVar "i"; XVar "j"]; XNeg (XMeth (XVar "ctx")
            "CNFVar" [XVar "cv"; XBin OSub (XVar "i") (XInt 1); XBin OSub (XVar "j") (XInt
            1)]); XNeg (XMeth (XVar "ctx") "CNFVar" [XVar "v"; XVar "i"; XInt 0])]; XLst
            [XNeg (XMeth (XVar "ctx") "CNFVar" [XVar "cv"; XVar "i"; XVar "j"]); XMeth
            (XVar "ctx") "CNFVar" [XVar "cv"; XBin OSub (XVar "i") (XInt 1); XVar "j"];
            XMeth (XVar "ctx") "CNFVar" [XVar "v"; XVar "i"; XInt 0]]; XLst [XMeth (XVar
            "ctx") "CNFVar" [XVar "cv"; XVar "i"; XVar "j"]; XNeg (XMeth (XVar "ctx")
            "CNFVar" [XVar "cv"; XBin OSub (XVar "i") (XInt 1); XVar "j"]); XMeth (XVar
            "ctx") "CNFVar" [XVar "v"; XVar "i"; XInt 0]]]]
      ]
    ];
    SFor [SAssign [LVar "i"] [XInt 0]] (XBin OLt (XVar "i") (XVar "dim")) [SAssign [LVar
        "i"] [XBin OAdd (XVar "i") (XInt 1)]] [
      SFor [SAssign [LVar "j"] [XBin OAdd (XVar "i") (XInt 2)]] (XBin OLe (XVar "j") (XVar
          "dim")) [SAssign [LVar "j"] [XBin OAdd (XVar "j") (XInt 1)]] [
        SAssign [LVar "clauses"] [XApp (XVar "clauses") [XLst [XNeg (XMeth (XVar "ctx")
            "CNFVar" [XVar "cv"; XVar "i"; XVar "j"])]]]
      ]
    ];
    SAssign [LVar "clauses"] [XApp (XVar "clauses") [XLst [XNeg (XMeth (XVar "ctx")
        "CNFVar" [XVar "cv"; XInt 0; XInt 1]); XMeth (XVar "ctx") "CNFVar" [XVar "v"; XInt
        0; XInt 0]]; XLst [XNeg (XMeth (XVar "ctx") "CNFVar" [XVar "v"; XInt 0; XInt 0]);
        XMeth (XVar "ctx") "CNFVar" [XVar "cv"; XInt 0; XInt 1]]; XLst [XNeg (XMeth (XVar
        "ctx") "CNFVar" [XVar "cv"; XInt 0; XInt 0]); XNeg (XMeth (XVar "ctx") "CNFVar"
        [XVar "v"; XInt 0; XInt 0])]; XLst [XMeth (XVar "ctx") "CNFVar" [XVar "v"; XInt 0;
        XInt 0]; XMeth (XVar "ctx") "CNFVar" [XVar "cv"; XInt 0; XInt 0]]]];
    SReturn [XVar "clauses"]
  ].

(* query/predicates/lel/var_const.go:23-49 *)
Definition src_lel_VarConst_Encoding : func :=
  mkFunc ["l"; "ctx"] [] false
  [
    SIf [] (XBin OEq (XVar "ctx") (XNil)) [
      SReturn [XStc "cnf.CNF" [("tv", XInt 0); ("sClauses", XLst []); ("cClauses", XLst
          [])]; XPrim "errors.New" [XStr "Invalid encoding with nil ctx"]]
    ] [];
    SIf [] (XBin OEq (XSel (XVar "l") "CountVarGen") (XNil)) [
      SReturn [XStc "cnf.CNF" [("tv", XInt 0); ("sClauses", XLst []); ("cClauses", XLst
          [])]; XPrim "errors.New" [XStr "Invalid nil var generation function"]]
    ] [];
    SAssign [LNew "sv"] [XMeth (XVar "ctx") "ScopeVar" [XSel (XVar "l") "I1"]];
    SAssign [LNew "sc"; LBlank] [XMeth (XVar "ctx") "ScopeConst" [XSel (XVar "l") "I2"]];
    SAssign [LNew "svCount"] [XDyn (XSel (XVar "l") "CountVarGen") [XVar "sv"]];
    SIf [SAssign [LNew "err"] [XCall "query.ValidateConstsDim" [XMeth (XVar "ctx") "Dim"
        []; XLst [XVar "sc"]]]] (XBin ONe (XVar "err") (XNil)) [
      SReturn [XStc "cnf.CNF" [("tv", XInt 0); ("sClauses", XLst []); ("cClauses", XLst
          [])]; XVar "err"]
    ] [];
    SAssign [LNew "ncnf"] [XStc "cnf.CNF" [("tv", XInt 0); ("sClauses", XLst []);
        ("cClauses", XLst [])]];
    SAssign [LVar "ncnf"] [XMeth (XVar "ncnf") "AppendConsistency" [XCall
        "lel.varBotCountClauses" [XVar "sv"; XVar "svCount"; XVar "ctx"]]];
    SFor [SAssign [LNew "i"] [XInt 0]] (XBin OLt (XVar "i") (XMeth (XVar "sc") "BotCount"
        [])) [SAssign [LVar "i"] [XBin OAdd (XVar "i") (XInt 1)]] [
      SAssign [LVar "ncnf"] [XMeth (XVar "ncnf") "AppendSemantics" [XLst [XLst [XNeg
          (XMeth (XVar "ctx") "CNFVar" [XVar "svCount"; XBin OSub (XMeth (XVar "ctx")
          "Dim" []) (XInt 1); XVar "i"])]]]]
    ];
    SReturn [XVar "ncnf"; XNil]
  ].

(* query/predicates/lel/var_var.go:23-55 *)
Definition src_lel_VarVar_Encoding : func :=
  mkFunc ["l"; "ctx"] [] false
  [
    SIf [] (XBin OEq (XVar "ctx") (XNil)) [
      SReturn [XStc "cnf.CNF" [("tv", XInt 0); ("sClauses", XLst []); ("cClauses", XLst
          [])]; XPrim "errors.New" [XStr "Invalid encoding with nil ctx"]]
    ] [];
    SIf [] (XBin OEq (XSel (XVar "l") "CountVarGen") (XNil)) [
      SReturn [XStc "cnf.CNF" [("tv", XInt 0); ("sClauses", XLst []); ("cClauses", XLst
          [])]; XPrim "errors.New" [XStr "Invalid nil var generation function"]]
    ] [];
    SAssign [LNew "sv1"] [XMeth (XVar "ctx") "ScopeVar" [XSel (XVar "l") "I1"]];
    SAssign [LNew "sv2"] [XMeth (XVar "ctx") "ScopeVar" [XSel (XVar "l") "I2"]];
    SAssign [LNew "svCount1"] [XDyn (XSel (XVar "l") "CountVarGen") [XVar "sv1"]];
    SAssign [LNew "svCount2"] [XDyn (XSel (XVar "l") "CountVarGen") [XVar "sv2"]];
    SAssign [LNew "ncnf"] [XStc "cnf.CNF" [("tv", XInt 0); ("sClauses", XLst []);
        ("cClauses", XLst [])]];
    SAssign [LVar "ncnf"] [XMeth (XVar "ncnf") "AppendConsistency" [XCall
        "lel.varBotCountClauses" [XVar "sv1"; XVar "svCount1"; XVar "ctx"]]];
    SAssign [LVar "ncnf"] [XMeth (XVar "ncnf") "AppendConsistency" [XCall
        "lel.varBotCountClauses" [XVar "sv2"; XVar "svCount2"; XVar "ctx"]]];
    SAssign [LNew "i"; LNew "j"] [XInt 0; XInt 0];
    SFor [SAssign [LVar "i"] [XInt 0]] (XBin OLt (XVar "i") (XMeth (XVar "ctx") "Dim" []))
        [SAssign [LVar "i"] [XBin OAdd (XVar "i") (XInt 1)]] [
      SAssign [LNew "cl"] [XLst [XNeg (XMeth (XVar "ctx") "CNFVar" [XVar "svCount1"; XBin
          OSub (XMeth (XVar "ctx") "Dim" []) (XInt 1); XVar "i"])]];
      SFor [SAssign [LVar "j"] [XInt 0]] (XBin OLe (XVar "j") (XVar "i")) [SAssign [LVar
          "j"] [XBin OAdd (XVar "j") (XInt 1)]] [
        SAssign [LVar "cl"] [XApp (XVar "cl") [XMeth (XVar "ctx") "CNFVar" [XVar
            "svCount2"; XBin OSub (XMeth (XVar "ctx") "Dim" []) (XInt 1); XVar "j"]]]
      ];
      SAssign [LVar "ncnf"] [XMeth (XVar "ncnf") "AppendSemantics" [XLst [XVar "cl"]]]
    ];
    SReturn [XVar "ncnf"; XNil]
  ].

(* query/predicates/subsumption/const_const.go:18-41 *)
Definition src_subsumption_ConstConst_Encoding : func :=
  mkFunc ["s"; "ctx"] [] false
  [
    SIf [] (XBin OEq (XVar "ctx") (XNil)) [
      SReturn [XStc "cnf.CNF" [("tv", XInt 0); ("sClauses", XLst []); ("cClauses", XLst
          [])]; XPrim "errors.New" [XStr "Invalid encoding with nil ctx"]]
    ] [];
    SAssign [LNew "sc1"; LBlank] [XMeth (XVar "ctx") "ScopeConst" [XSel (XVar "s") "I1"]];
    SAssign [LNew "sc2"; LBlank] [XMeth (XVar "ctx") "ScopeConst" [XSel (XVar "s") "I2"]];
    SIf [SAssign [LNew "err"] [XCall "query.ValidateConstsDim" [XMeth (XVar "ctx") "Dim"
        []; XLst [XVar "sc1"; XVar "sc2"]]]] (XBin ONe (XVar "err") (XNil)) [
      SReturn [XStc "cnf.CNF" [("tv", XInt 0); ("sClauses", XLst []); ("cClauses", XLst
          [])]; XVar "err"]
    ] [];
    SRange "i" "ft" (XSel (XVar "sc1") "Val") [
      SIf [] (XBin OAnd (XBin ONe (XVar "ft") (XInt 0)) (XBin ONe (XVar "ft") (XIdx (XSel
          (XVar "sc2") "Val") (XVar "i")))) [
        SReturn [XGlob "cnf.FalseCNF"; XNil]
      ] []
    ];
    SReturn [XGlob "cnf.TrueCNF"; XNil]
  ].

(* query/predicates/subsumption/const_var.go:18-41 *)
Definition src_subsumption_ConstVar_Encoding : func :=
  mkFunc ["s"; "ctx"] [] false
  [
    SIf [] (XBin OEq (XVar "ctx") (XNil)) [
      SReturn [XStc "cnf.CNF" [("tv", XInt 0); ("sClauses", XLst []); ("cClauses", XLst
          [])]; XPrim "errors.New" [XStr "Invalid encoding with nil ctx"]]
    ] [];
    SAssign [LNew "sv"] [XMeth (XVar "ctx") "ScopeVar" [XSel (XVar "s") "I2"]];
    SAssign [LNew "sc"; LBlank] [XMeth (XVar "ctx") "ScopeConst" [XSel (XVar "s") "I1"]];
    SIf [SAssign [LNew "err"] [XCall "query.ValidateConstsDim" [XMeth (XVar "ctx") "Dim"
        []; XLst [XVar "sc"]]]] (XBin ONe (XVar "err") (XNil)) [
      SReturn [XStc "cnf.CNF" [("tv", XInt 0); ("sClauses", XLst []); ("cClauses", XLst
          [])]; XVar "err"]
    ] [];
    SAssign [LNew "clauses"] [XLst []];
    SRange "i" "ft" (XSel (XVar "sc") "Val") [
      SIf [] (XBin ONe (XVar "ft") (XInt 0)) [
        SAssign [LVar "clauses"] [XApp (XVar "clauses") [XLst [XMeth (XVar "ctx") "CNFVar"
            [XVar "sv"; XVar "i"; XVar "ft"]]]]
      ] []
    ];
    SReturn [XCall "cnf.FromClauses" [XVar "clauses"]; XNil]
  ].

(* query/predicates/subsumption/var_const.go:18-54 *)
Definition src_subsumption_VarConst_Encoding : func :=
  mkFunc ["s"; "ctx"] [] false
  [
    SIf [] (XBin OEq (XVar "ctx") (XNil)) [
      SReturn [XStc "cnf.CNF" [("tv", XInt 0); ("sClauses", XLst []); ("cClauses", XLst
          [])]; XPrim "errors.New" [XStr "Invalid encoding with nil ctx"]]
    ] [];
    SAssign [LNew "sv"] [XMeth (XVar "ctx") "ScopeVar" [XSel (XVar "s") "I1"]];
    SAssign [LNew "sc"; LBlank] [XMeth (XVar "ctx") "ScopeConst" [XSel (XVar "s") "I2"]];
    SIf [SAssign [LNew "err"] [XCall "query.ValidateConstsDim" [XMeth (XVar "ctx") "Dim"
        []; XLst [XVar "sc"]]]] (XBin ONe (XVar "err") (XNil)) [
      SReturn [XStc "cnf.CNF" [("tv", XInt 0); ("sClauses", XLst []); ("cClauses", XLst
          [])]; XVar "err"]
    ] [];
    SAssign [LNew "clauses"] [XLst []];
    SRange "i" "ft" (XSel (XVar "sc") "Val") [
      SIf [] (XBin OEq (XVar "ft") (XInt 2)) [
        SAssign [LVar "clauses"] [XApp (XVar "clauses") [XLst [XNeg (XMeth (XVar "ctx")
            "CNFVar" [XVar "sv"; XVar "i"; XInt 1])]]];
        SContinue
      ] [];
      SIf [] (XBin OEq (XVar "ft") (XInt 1)) [
        SAssign [LVar "clauses"] [XApp (XVar "clauses") [XLst [XNeg (XMeth (XVar "ctx")
            "CNFVar" [XVar "sv"; XVar "i"; XInt 2])]]];
        SContinue
      ] [];
      SAssign [LVar "clauses"] [XApp (XVar "clauses") [XLst [XNeg (XMeth (XVar "ctx")
          "CNFVar" [XVar "sv"; XVar "i"; XInt 2])]; XLst [XNeg (XMeth (XVar "ctx")
          "CNFVar" [XVar "sv"; XVar "i"; XInt 1])]]]
    ];
    SReturn [XCall "cnf.FromClauses" [XVar "clauses"]; XNil]
  ].

(* query/predicates/subsumption/var_var.go:18-43 *)
Definition src_subsumption_VarVar_Encoding : func :=
  mkFunc ["s"; "ctx"] [] false
  [
    SIf [] (XBin OEq (XVar "ctx") (XNil)) [
      SReturn [XStc "cnf.CNF" [("tv", XInt 0); ("sClauses", XLst []); ("cClauses", XLst
          [])]; XPrim "errors.New" [XStr "Invalid encoding with nil ctx"]]
    ] [];
    SAssign [LNew "sv1"] [XMeth (XVar "ctx") "ScopeVar" [XSel (XVar "s") "I1"]];
    SAssign [LNew "sv2"] [XMeth (XVar "ctx") "ScopeVar" [XSel (XVar "s") "I2"]];
    SAssign [LNew "clauses"] [XLst []];
    SFor [SAssign [LNew "i"] [XInt 0]] (XBin OLt (XVar "i") (XMeth (XVar "ctx") "Dim" []))
        [SAssign [LVar "i"] [XBin OAdd (XVar "i") (XInt 1)]] [
      SAssign [LVar "clauses"] [XApp (XVar "clauses") [XLst [XNeg (XMeth (XVar "ctx")
          "CNFVar" [XVar "sv1"; XVar "i"; XInt 2]); XMeth (XVar "ctx") "CNFVar" [XVar
          "sv2"; XVar "i"; XInt 2]]; XLst [XNeg (XMeth (XVar "ctx") "CNFVar" [XVar "sv1";
          XVar "i"; XInt 1]); XMeth (XVar "ctx") "CNFVar" [XVar "sv2"; XVar "i"; XInt
          1]]]]
    ];
    SReturn [XCall "cnf.FromClauses" [XVar "clauses"]; XNil]
  ].

(* examples/computation.go:58-60 *)
Definition src_main_optDTree_Dim : func :=
  mkFunc ["t"] [] false
  [
    SReturn [XSel (XVar "t") "dim"]
  ].

(* examples/computation.go:62-64 *)
Definition src_main_optDTree_Nodes : func :=
  mkFunc ["t"] [] false
  [
    SReturn [XSel (XVar "t") "nodes"]
  ].

(* examples/computation.go:68-70 *)
Definition src_main_reachableVarGen : func :=
  mkFunc ["v"] [] false
  [
    SReturn [XBin OAdd (XStr "r") (XVar "v")]
  ].

(* examples/computation.go:72-167 *)
Definition src_main_ComputationExample : func :=
  mkFunc [] [] false
  [
    SAssign [LNew "tree"] [XStc "Model" [("dim", XInt 3); ("nodes", XLst [XStc
        "query.Node" [("Value", XBool false); ("Feat", XInt 0); ("ZChild", XInt 1);
        ("OChild", XInt 6)]; XStc "query.Node" [("Value", XBool false); ("Feat", XInt 1);
        ("ZChild", XInt 2); ("OChild", XInt 5)]; XStc "query.Node" [("Value", XBool
        false); ("Feat", XInt 2); ("ZChild", XInt 3); ("OChild", XInt 4)]; XStc
        "query.Node" [("Value", XBool true); ("Feat", XInt 0); ("ZChild", XInt (-1));
        ("OChild", XInt (-1))]; XStc "query.Node" [("Value", XBool true); ("Feat", XInt
        0); ("ZChild", XInt (-1)); ("OChild", XInt (-1))]; XStc "query.Node" [("Value",
        XBool true); ("Feat", XInt 0); ("ZChild", XInt (-1)); ("OChild", XInt (-1))]; XStc
        "query.Node" [("Value", XBool false); ("Feat", XInt 2); ("ZChild", XInt 7);
        ("OChild", XInt 8)]; XStc "query.Node" [("Value", XBool false); ("Feat", XInt 0);
        ("ZChild", XInt (-1)); ("OChild", XInt (-1))]; XStc "query.Node" [("Value", XBool
        false); ("Feat", XInt 1); ("ZChild", XInt 9); ("OChild", XInt 10)]; XStc
        "query.Node" [("Value", XBool true); ("Feat", XInt 0); ("ZChild", XInt (-1));
        ("OChild", XInt (-1))]; XStc "query.Node" [("Value", XBool false); ("Feat", XInt
        0); ("ZChild", XInt (-1)); ("OChild", XInt (-1))]])]];
    SAssign [LNew "ctx"] [XCall "query.BasicQContext" [XVar "tree"]];
    SAssign [LNew "c"] [XStc "query.QConst" [("ID", XStr ""); ("Val", XLst [XInt 1; XInt
        2; XInt 2])]];
    SAssign [LNew "sufficientReason"] [XFun [("v", false)] (XStc "logop.WithVar" [("I",
        XVar "v"); ("Q", XStc "logop.And" [("Q1", XStc "subsumption.VarConst" [("I1", XVar
        "v"); ("I2", XVar "c")]); ("Q2", XStc "logop.And" [("Q1", XStc "logop.Or" [("Q1",
        XStc "logop.Not" [("Q", XStc "allcomp.Const" [("I", XVar "c"); ("LeafValue", XBool
        true)])]); ("Q2", XStc "allcomp.Var" [("I", XVar "v"); ("LeafValue", XBool true);
        ("ReachNodeVarGen", XGen ["v"] (XBin OAdd (XStr "r") (XVar "v")))])]); ("Q2", XStc
        "logop.Or" [("Q1", XStc "logop.Not" [("Q", XStc "allcomp.Const" [("I", XVar "c");
        ("LeafValue", XBool false)])]); ("Q2", XStc "allcomp.Var" [("I", XVar "v");
        ("LeafValue", XBool false); ("ReachNodeVarGen", XGen ["v"] (XBin OAdd (XStr "r")
        (XVar "v")))])])])])])];
    SAssign [LNew "strictSubsumption"] [XFun [("v", false); ("u", true)] (XStc "logop.And"
        [("Q1", XStc "subsumption.VarConst" [("I1", XVar "v"); ("I2", XVar "u")]); ("Q2",
        XStc "logop.Not" [("Q", XStc "subsumption.ConstVar" [("I1", XVar "u"); ("I2", XVar
        "v")])])])];
    SAssign [LNew "solver"; LNew "err"] [XCall "compute.BinSolver" [XStr
        "path_to_solver_binary"]];
    SIf [] (XBin ONe (XVar "err") (XNil)) [
      SExpr (XPrim "panic" [XVar "err"])
    ] [];
    SAssign [LNew "output"; LVar "err"] [XCall "compute.ComputeOptim" [XVar
        "sufficientReason"; XVar "strictSubsumption"; XStr "x"; XVar "ctx"; XVar
        "solver"]];
    SIf [] (XBin ONe (XVar "err") (XNil)) [
      SExpr (XPrim "panic" [XVar "err"])
    ] [];
    SIf [] (XSel (XVar "output") "Found") [
      SExpr (XSys "fmt.Printf" [XStr ("Value found: %s" ++ newline); XPrim "strings.Split"
          [XMeth (XSel (XVar "output") "Value") "AsString" []; XStr ""]])
    ] [
      SExpr (XSys "fmt.Println" [XStr "No value exists."])
    ]
  ].

(* examples/evaluation.go:53-55 *)
Definition src_main_evalDTree_Dim : func :=
  mkFunc ["t"] [] false
  [
    SReturn [XSel (XVar "t") "dim"]
  ].

(* examples/evaluation.go:57-59 *)
Definition src_main_evalDTree_Nodes : func :=
  mkFunc ["t"] [] false
  [
    SReturn [XSel (XVar "t") "nodes"]
  ].

(* examples/evaluation.go:63-65 *)
Definition src_main_botCountVarGen : func :=
  mkFunc ["v"] [] false
  [
    SReturn [XBin OAdd (XStr "cbot") (XVar "v")]
  ].

(* examples/evaluation.go:67-146 *)
Definition src_main_EvaluationExample : func :=
  mkFunc [] [] false
  [
    SAssign [LNew "tree"] [XStc "Model" [("dim", XInt 3); ("nodes", XLst [XStc
        "query.Node" [("Value", XBool false); ("Feat", XInt 0); ("ZChild", XInt 1);
        ("OChild", XInt 8)]; XStc "query.Node" [("Value", XBool false); ("Feat", XInt 1);
        ("ZChild", XInt 2); ("OChild", XInt 5)]; XStc "query.Node" [("Value", XBool
        false); ("Feat", XInt 2); ("ZChild", XInt 3); ("OChild", XInt 4)]; XStc
        "query.Node" [("Value", XBool false); ("Feat", XInt 0); ("ZChild", XInt (-1));
        ("OChild", XInt (-1))]; XStc "query.Node" [("Value", XBool false); ("Feat", XInt
        0); ("ZChild", XInt (-1)); ("OChild", XInt (-1))]; XStc "query.Node" [("Value",
        XBool false); ("Feat", XInt 2); ("ZChild", XInt 6); ("OChild", XInt 7)]; XStc
        "query.Node" [("Value", XBool true); ("Feat", XInt 0); ("ZChild", XInt (-1));
        ("OChild", XInt (-1))]; XStc "query.Node" [("Value", XBool true); ("Feat", XInt
        0); ("ZChild", XInt (-1)); ("OChild", XInt (-1))]; XStc "query.Node" [("Value",
        XBool false); ("Feat", XInt 2); ("ZChild", XInt 9); ("OChild", XInt 12)]; XStc
        "query.Node" [("Value", XBool false); ("Feat", XInt 1); ("ZChild", XInt 10);
        ("OChild", XInt 11)]; XStc "query.Node" [("Value", XBool false); ("Feat", XInt 0);
        ("ZChild", XInt (-1)); ("OChild", XInt (-1))]; XStc "query.Node" [("Value", XBool
        true); ("Feat", XInt 0); ("ZChild", XInt (-1)); ("OChild", XInt (-1))]; XStc
        "query.Node" [("Value", XBool false); ("Feat", XInt 1); ("ZChild", XInt 13);
        ("OChild", XInt 14)]; XStc "query.Node" [("Value", XBool false); ("Feat", XInt 0);
        ("ZChild", XInt (-1)); ("OChild", XInt (-1))]; XStc "query.Node" [("Value", XBool
        true); ("Feat", XInt 0); ("ZChild", XInt (-1)); ("OChild", XInt (-1))]])]];
    SAssign [LNew "ctx"] [XCall "query.BasicQContext" [XVar "tree"]];
    SAssign [LNew "c"] [XStc "query.QConst" [("ID", XStr ""); ("Val", XLst [XInt 0; XInt
        1; XInt 0])]];
    SAssign [LNew "y"] [XStr "y"];
    SAssign [LNew "qry"] [XStc "logop.Or" [("Q1", XStc "logop.Not" [("Q", XStc "dfs.Const"
        [("I", XVar "c")])]); ("Q2", XStc "logop.WithVar" [("I", XVar "y"); ("Q", XStc
        "logop.And" [("Q1", XStc "dfs.Var" [("I", XVar "y")]); ("Q2", XStc "logop.And"
        [("Q1", XStc "lel.VarConst" [("I1", XVar "y"); ("I2", XVar "c"); ("CountVarGen",
        XGen ["v"] (XBin OAdd (XStr "cbot") (XVar "v")))]); ("Q2", XStc "logop.Not" [("Q",
        XStc "lel.ConstVar" [("I1", XVar "c"); ("I2", XVar "y"); ("CountVarGen", XGen
        ["v"] (XBin OAdd (XStr "cbot") (XVar "v")))])])])])])]];
    SAssign [LNew "solver"; LNew "err"] [XCall "compute.BinSolver" [XStr
        "path_to_solver_binary"]];
    SIf [] (XBin ONe (XVar "err") (XNil)) [
      SExpr (XPrim "panic" [XVar "err"])
    ] [];
    SAssign [LNew "boolComb"] [XStc "compute.QDTFAtom" [("Query", XVar "qry"); ("Negated",
        XBool true)]];
    SAssign [LNew "result"; LVar "err"] [XMeth (XVar "boolComb") "Sat" [XVar "ctx"; XVar
        "solver"]];
    SIf [] (XBin ONe (XVar "err") (XNil)) [
      SExpr (XPrim "panic" [XVar "err"])
    ] [];
    SExpr (XSys "fmt.Println" [XVar "result"])
  ].

(* package-level variables *)
Definition source_globals : list (string * expr) :=
  [
    ("cnf.NegClauses", XLst [XLst []]);
    ("cnf.TrueCNF", XStc "cnf.CNF" [("tv", XInt 0); ("sClauses", XLst []); ("cClauses", XLst [])]);
    ("cnf.FalseCNF", XStc "cnf.CNF" [("tv", XInt 0); ("sClauses", XGlob "cnf.NegClauses"); ("cClauses", XLst [])]);
    ("compute.UnsatError", XPrim "errors.New" [XStr "Formula is not satisfiable"])
  ].

(* embedded fields *)
Definition source_embedded : list (string * list string) :=
  [
    ("query.baseQContext", ["baseScoper"; "baseVarManager"; "Model"])
  ].

Definition source : list (string * func) :=
  [
    ("cnf.FromClauses", src_cnf_FromClauses);
    ("cnf.CNF.TopV", src_cnf_CNF_TopV);
    ("cnf.CNF.Negate", src_cnf_CNF_Negate);
    ("cnf.CNF.tseytinNegation", src_cnf_CNF_tseytinNegation);
    ("cnf.CNF.addNegationIFFClauses", src_cnf_CNF_addNegationIFFClauses);
    ("cnf.CNF.Conjunction", src_cnf_CNF_Conjunction);
    ("cnf.CNF.AppendSemantics", src_cnf_CNF_AppendSemantics);
    ("cnf.CNF.AppendConsistency", src_cnf_CNF_AppendConsistency);
    ("cnf.CNF.ToBytes", src_cnf_CNF_ToBytes);
    ("cnf.CNF.ToFile", src_cnf_CNF_ToFile);
    ("cnf.CNF.Clauses", src_cnf_CNF_Clauses);
    ("cnf.CNF.TriviallyTrue", src_cnf_CNF_TriviallyTrue);
    ("cnf.CNF.TriviallyFalse", src_cnf_CNF_TriviallyFalse);
    ("cnf.CNF.hasEmptySemanticClause", src_cnf_CNF_hasEmptySemanticClause);
    ("cnf.clauseToDIMACS", src_cnf_clauseToDIMACS);
    ("cnf.maxVar", src_cnf_maxVar);
    ("cnf.absInt", src_cnf_absInt);
    ("cnf.maxInt", src_cnf_maxInt);
    ("compute.AndCombinator.Sat", src_compute_AndCombinator_Sat);
    ("compute.OrCombinator.Sat", src_compute_OrCombinator_Sat);
    ("compute.QDTFAtom.Sat", src_compute_QDTFAtom_Sat);
    ("compute.ComputeOptim", src_compute_ComputeOptim);
    ("compute.BinSolver", src_compute_BinSolver);
    ("compute.binSolver.Step", src_compute_binSolver_Step);
    ("compute.runSolver", src_compute_runSolver);
    ("compute.binSolver.Values", src_compute_binSolver_Values);
    ("compute.varValueFromBytes", src_compute_varValueFromBytes);
    ("compute.variableFilter", src_compute_variableFilter);
    ("compute.iAbs", src_compute_iAbs);
    ("query.BasicQContext", src_query_BasicQContext);
    ("query.baseQContext.Reset", src_query_baseQContext_Reset);
    ("query.AllBotConst", src_query_AllBotConst);
    ("query.QConst.IsFull", src_query_QConst_IsFull);
    ("query.QConst.AsString", src_query_QConst_AsString);
    ("query.QConst.BotCount", src_query_QConst_BotCount);
    ("query.QConst.EqualValue", src_query_QConst_EqualValue);
    ("query.ValidateConstsDim", src_query_ValidateConstsDim);
    ("query.Node.IsLeaf", src_query_Node_IsLeaf);
    ("query.baseScoper.ScopeVar", src_query_baseScoper_ScopeVar);
    ("query.baseScoper.AddVar", src_query_baseScoper_AddVar);
    ("query.baseScoper.ScopeConst", src_query_baseScoper_ScopeConst);
    ("query.baseScoper.AddScope", src_query_baseScoper_AddScope);
    ("query.baseScoper.PopScope", src_query_baseScoper_PopScope);
    ("query.baseScoper.SetScope", src_query_baseScoper_SetScope);
    ("query.baseScoper.Reset", src_query_baseScoper_Reset);
    ("query.baseVarManager.TopV", src_query_baseVarManager_TopV);
    ("query.baseVarManager.UpdateTopV", src_query_baseVarManager_UpdateTopV);
    ("query.baseVarManager.CNFVar", src_query_baseVarManager_CNFVar);
    ("query.baseVarManager.CNFVarExists", src_query_baseVarManager_CNFVarExists);
    ("query.baseVarManager.Reset", src_query_baseVarManager_Reset);
    ("allcomp.Const.Encoding", src_allcomp_Const_Encoding);
    ("allcomp.Var.Encoding", src_allcomp_Var_Encoding);
    ("cons.ConstConst.Encoding", src_cons_ConstConst_Encoding);
    ("cons.ConstVar.Encoding", src_cons_ConstVar_Encoding);
    ("cons.VarConst.Encoding", src_cons_VarConst_Encoding);
    ("cons.VarVar.Encoding", src_cons_VarVar_Encoding);
    ("dfs.Const.Encoding", src_dfs_Const_Encoding);
    ("dfs.leafCompare", src_dfs_leafCompare);
    ("dfs.leafsAsConsts", src_dfs_leafsAsConsts);
    ("dfs.validateNode", src_dfs_validateNode);
    ("dfs.Var.Encoding", src_dfs_Var_Encoding);
    ("dfs.notAWitnessClause", src_dfs_notAWitnessClause);
    ("full.Const.Encoding", src_full_Const_Encoding);
    ("full.Var.Encoding", src_full_Var_Encoding);
    ("hepr.ConstConst.Encoding", src_hepr_ConstConst_Encoding);
    ("hepr.ConstVar.Encoding", src_hepr_ConstVar_Encoding);
    ("hepr.validatePref", src_hepr_validatePref);
    ("hepr.prefVar", src_hepr_prefVar);
    ("hepr.VarConst.Encoding", src_hepr_VarConst_Encoding);
    ("hepr.VarVar.Encoding", src_hepr_VarVar_Encoding);
    ("leh.ConstConstConst.Encoding", src_leh_ConstConstConst_Encoding);
    ("leh.ConstConstVar.Encoding", src_leh_ConstConstVar_Encoding);
    ("leh.ConstVarConst.Encoding", src_leh_ConstVarConst_Encoding);
    ("leh.ConstVarVar.Encoding", src_leh_ConstVarVar_Encoding);
    ("leh.hammingDistCC", src_leh_hammingDistCC);
    ("leh.hammingDistVC", src_leh_hammingDistVC);
    ("leh.hammingDistVV", src_leh_hammingDistVV);
    ("leh.varFullClauses", src_leh_varFullClauses);
    ("leh.fullVarEqualClauses", src_leh_fullVarEqualClauses);
    ("leh.VarConstConst.Encoding", src_leh_VarConstConst_Encoding);
    ("leh.VarConstVar.Encoding", src_leh_VarConstVar_Encoding);
    ("leh.VarVarConst.Encoding", src_leh_VarVarConst_Encoding);
    ("leh.VarVarVar.Encoding", src_leh_VarVarVar_Encoding);
    ("logop.And.Encoding", src_logop_And_Encoding);
    ("logop.And.buildEncoding", src_logop_And_buildEncoding);
    ("logop.newNodeAsValuesIter", src_logop_newNodeAsValuesIter);
    ("logop.validateNode", src_logop_validateNode);
    ("logop.nodeAsValuesIter.Next", src_logop_nodeAsValuesIter_Next);
    ("logop.ForAllGuarded.Encoding", src_logop_ForAllGuarded_Encoding);
    ("logop.ForAllGuarded.buildEncoding", src_logop_ForAllGuarded_buildEncoding);
    ("logop.Not.Encoding", src_logop_Not_Encoding);
    ("logop.Not.buildEncoding", src_logop_Not_buildEncoding);
    ("logop.Or.Encoding", src_logop_Or_Encoding);
    ("logop.Or.buildEncoding", src_logop_Or_buildEncoding);
    ("logop.WithVar.Encoding", src_logop_WithVar_Encoding);
    ("logop.WithVar.buildEncoding", src_logop_WithVar_buildEncoding);
    ("logop.WithVar.encodeI", src_logop_WithVar_encodeI);
    ("isnode.Const.Encoding", src_isnode_Const_Encoding);
    ("isnode.newVisitRecord", src_isnode_newVisitRecord);
    ("isnode.allFeatsVisited", src_isnode_allFeatsVisited);
    ("isnode.Var.Encoding", src_isnode_Var_Encoding);
    ("lel.ConstConst.Encoding", src_lel_ConstConst_Encoding);
    ("lel.ConstVar.Encoding", src_lel_ConstVar_Encoding);
    ("lel.varBotCountClauses", src_lel_varBotCountClauses);
    ("lel.VarConst.Encoding", src_lel_VarConst_Encoding);
    ("lel.VarVar.Encoding", src_lel_VarVar_Encoding);
    ("subsumption.ConstConst.Encoding", src_subsumption_ConstConst_Encoding);
    ("subsumption.ConstVar.Encoding", src_subsumption_ConstVar_Encoding);
    ("subsumption.VarConst.Encoding", src_subsumption_VarConst_Encoding);
    ("subsumption.VarVar.Encoding", src_subsumption_VarVar_Encoding);
    ("main.optDTree.Dim", src_main_optDTree_Dim);
    ("main.optDTree.Nodes", src_main_optDTree_Nodes);
    ("main.reachableVarGen", src_main_reachableVarGen);
    ("main.ComputationExample", src_main_ComputationExample);
    ("main.evalDTree.Dim", src_main_evalDTree_Dim);
    ("main.evalDTree.Nodes", src_main_evalDTree_Nodes);
    ("main.botCountVarGen", src_main_botCountVarGen);
    ("main.EvaluationExample", src_main_EvaluationExample)
  ].

(* Not translated:
*)
