(* The project's own unit tests, transcribed mechanically from the _test.go
   files.  They are tests of the model against the expectations written down by
   the authors of the code, not proofs of any property: for each file, one
   Example that evaluates all its test functions in the model.  The solver is
   the DPLL solver of Solver.v in place of kissat.

   Left out: names of test cases and error texts in messages of t.Errorf. *)
From Verif Require Import GoBase Cnf Query Walk Atoms Logop Compute Dimacs Solver Run Outside.
Local Open Scope Z_scope.

(* query/internal/test/ttable.go:7-31 and extensions/hepr/tables_test.go:5-12 *)
Record record := mkRec { rDim : nat; Val1 : list FeatV; Val2 : list FeatV; Val3 : list FeatV; Pref : list Z; ExpCode : Z }.
Definition Dim (r : record) : Z := Z.of_nat (rDim r).
Definition Val := Val1.
Definition rec1 (d : Z) v c := mkRec (Z.to_nat d) v [] [] [] c.
Definition rec2 (d : Z) v w c := mkRec (Z.to_nat d) v w [] [] c.
Definition rec3 (d : Z) v w x c := mkRec (Z.to_nat d) v w x [] c.
Definition recP (d : Z) v w p c := mkRec (Z.to_nat d) v w [] p c.

(* query/internal/test/mocktree.go:14-32 *)
Definition mock (dim : Z) (nodes : list node) : model := mkModel (Z.to_nat dim) nodes.

(* query/internal/test/auxvar.go *)
Definition rs : string := String (Ascii.ascii_of_nat 30) EmptyString.
Definition VarGenBotCount (v : string) : string := "botc" ++ rs ++ v.
Definition VarGenNodeReach (v : string) : string := "reach" ++ rs ++ v.
Definition VarGenHammingDistance (v1 v2 : string) : string :=
  if String.ltb v1 v2 then "hdist" ++ rs ++ v1 ++ rs ++ v2 else "hdist" ++ rs ++ v2 ++ rs ++ v1.
Definition VarGenEqualFeat (v1 v2 : string) : string :=
  if String.ltb v1 v2 then "eqf" ++ rs ++ v1 ++ rs ++ v2 else "eqf" ++ rs ++ v2 ++ rs ++ v1.
Definition VarGenFeaturePreference (p v1 v2 : string) : string := "fp" ++ rs ++ p ++ rs ++ v1 ++ rs ++ v2.

(* query/internal/test/solver.go:24-74 *)
Definition EncodeAndRun (q : query) (c : ctx) (code : Z) : bool :=
  match enc q c with
  | (Ok f, _) =>
      match ToFile true (fun _ => true) f with
      | Ok file => match ideal_run file with RunExit k _ _ => k =? code | _ => false end
      | _ => false
      end
  | _ => false
  end.
Definition is_err (r : res CNF * ctx) : bool := match fst r with Err _ => true | _ => false end.
Definition is_error (e : string) (r : res CNF) : bool := match r with Err e' => String.eqb e e' | _ => false end.
Definition addScope (c : ctx) (t : string) : ctx := mkCtx (AddScope (cScoper c) t) (cVM c) (cModel c).
Definition setScope (c : ctx) (i : Z) (v : list FeatV) : ctx := mkCtx (snd (SetScope (cScoper c) i v)) (cVM c) (cModel c).

Local Open Scope list_scope.

(* query/predicates/subsumption/tables_test.go *)
Definition SubsumptionPTT : list record :=
  [rec2 3 [ONE; BOT; BOT] [ONE; BOT; ZERO] 10;
   rec2 3 [ONE; BOT; BOT] [ZERO; BOT; ZERO] 20;
   rec2 3 [ONE; ZERO; ZERO] [ONE; BOT; BOT] 20;
   rec2 3 [BOT; BOT; BOT] [ONE; ZERO; ONE] 10;
   rec2 3 [BOT; BOT; ZERO] [ONE; BOT; ONE] 20;
   rec2 3 [ONE; ONE; ONE] [ONE; ONE; ONE] 10;
   rec2 3 [ONE; ZERO; ZERO] [ONE; ZERO; ONE] 20;
   rec2 3 [ONE; ZERO; ZERO] [ONE; ZERO; ONE] 20].
(* query/predicates/subsumption/tables_test.go *)
Definition SubsumptionNTT : list record :=
  [rec2 3 [ONE; BOT; BOT] [ONE; BOT; ZERO] 20;
   rec2 3 [ONE; BOT; BOT] [ZERO; BOT; ZERO] 10;
   rec2 3 [ONE; ZERO; ZERO] [ONE; BOT; BOT] 10;
   rec2 3 [BOT; BOT; BOT] [ONE; ZERO; ONE] 20;
   rec2 3 [BOT; BOT; ZERO] [ONE; BOT; ONE] 10;
   rec2 3 [ONE; ONE; ONE] [ONE; ONE; ONE] 20;
   rec2 3 [ONE; ZERO; ZERO] [ONE; ZERO; ONE] 10;
   rec2 3 [ONE; ZERO; ZERO] [ONE; ZERO; ONE] 10].
(* query/predicates/subsumption/const_const_test.go:runSubsumptionConstConst *)
Definition runSubsumptionConstConst (tc : record) (neg : bool) : bool :=
  let tree := (mock (Dim tc) []) in
  let ctx := (BasicQContext tree) in
  let f := (QAtom (SubsCC (mkQConst ""%string (Val1 tc)) (mkQConst ""%string (Val2 tc)))) in
  let f := if neg then (QNot f) else f in
  EncodeAndRun f ctx (ExpCode tc).
(* query/predicates/subsumption/const_const_test.go:runGuardedSubsumptionConstConst *)
Definition runGuardedSubsumptionConstConst (tc : record) (neg : bool) : bool :=
  let tree := (mock (Dim tc) []) in
  let ctx := (BasicQContext tree) in
  let x := (mkQConst "x"%string []) in
  let y := (mkQConst "y"%string []) in
  let ctx := addScope ctx "x"%string in
  let ctx := setScope ctx 1 (Val1 tc) in
  let ctx := addScope ctx "y"%string in
  let ctx := setScope ctx 2 (Val2 tc) in
  let f := (QAtom (SubsCC x y)) in
  let f := if neg then (QNot f) else f in
  EncodeAndRun f ctx (ExpCode tc).
(* query/predicates/subsumption/const_var_test.go:runSubsumptionConstVar *)
Definition runSubsumptionConstVar (tc : record) (neg : bool) : bool :=
  let tree := (mock (Dim tc) []) in
  let ctx := (BasicQContext tree) in
  let y := "y"%string in
  let c1 := (mkQConst ""%string (Val1 tc)) in
  let c2 := (mkQConst ""%string (Val2 tc)) in
  let f := (QAtom (SubsCV c1 y)) in
  let f := if neg then (QNot f) else f in
  let f := (QWith y (QAnd (QAnd (QAtom (SubsVC y c2)) (QAtom (SubsCV c2 y))) f)) in
  EncodeAndRun f ctx (ExpCode tc).
(* query/predicates/subsumption/const_var_test.go:runGuardedSubsumptionConstVar *)
Definition runGuardedSubsumptionConstVar (tc : record) (neg : bool) : bool :=
  let tree := (mock (Dim tc) []) in
  let ctx := (BasicQContext tree) in
  let x := (mkQConst "x"%string []) in
  let y := "y"%string in
  let c2 := (mkQConst ""%string (Val2 tc)) in
  let ctx := addScope ctx "x"%string in
  let ctx := setScope ctx 1 (Val1 tc) in
  let f := (QAtom (SubsCV x y)) in
  let f := if neg then (QNot f) else f in
  let f := (QWith y (QAnd (QAnd (QAtom (SubsVC y c2)) (QAtom (SubsCV c2 y))) f)) in
  EncodeAndRun f ctx (ExpCode tc).
(* query/predicates/subsumption/var_const_test.go:runSubsumptionVarConst *)
Definition runSubsumptionVarConst (tc : record) (neg : bool) : bool :=
  let tree := (mock (Dim tc) []) in
  let ctx := (BasicQContext tree) in
  let x := "x"%string in
  let c1 := (mkQConst ""%string (Val1 tc)) in
  let c2 := (mkQConst ""%string (Val2 tc)) in
  let f := (QAtom (SubsVC x c2)) in
  let f := if neg then (QNot f) else f in
  let f := (QWith x (QAnd (QAnd (QAtom (SubsVC x c1)) (QAtom (SubsCV c1 x))) f)) in
  EncodeAndRun f ctx (ExpCode tc).
(* query/predicates/subsumption/var_const_test.go:runGuardedSubsumptionVarConst *)
Definition runGuardedSubsumptionVarConst (tc : record) (neg : bool) : bool :=
  let tree := (mock (Dim tc) []) in
  let ctx := (BasicQContext tree) in
  let x := "x"%string in
  let y := (mkQConst "y"%string []) in
  let c1 := (mkQConst ""%string (Val1 tc)) in
  let ctx := addScope ctx "y"%string in
  let ctx := setScope ctx 1 (Val2 tc) in
  let f := (QAtom (SubsVC x y)) in
  let f := if neg then (QNot f) else f in
  let f := (QWith x (QAnd (QAnd (QAtom (SubsVC x c1)) (QAtom (SubsCV c1 x))) f)) in
  EncodeAndRun f ctx (ExpCode tc).
(* query/predicates/subsumption/var_var_test.go:runSubsumptionVarVar *)
Definition runSubsumptionVarVar (tc : record) (neg : bool) : bool :=
  let tree := (mock (Dim tc) []) in
  let ctx := (BasicQContext tree) in
  let x := "x"%string in
  let y := "y"%string in
  let c1 := (mkQConst ""%string (Val1 tc)) in
  let c2 := (mkQConst ""%string (Val2 tc)) in
  let f := (QAtom (SubsVV x y)) in
  let f := if neg then (QNot f) else f in
  let f := (QWith x (QWith y (QAnd (QAnd (QAtom (SubsVC x c1)) (QAtom (SubsCV c1 x))) (QAnd (QAnd (QAtom (SubsVC y c2)) (QAtom (SubsCV c2 y))) f)))) in
  EncodeAndRun f ctx (ExpCode tc).
(* query/predicates/lel/tables_test.go *)
Definition LELPTT : list record :=
  [rec2 3 [ONE; BOT; BOT] [ONE; BOT; ZERO] 10;
   rec2 3 [BOT; BOT; BOT] [ONE; ONE; ZERO] 10;
   rec2 3 [ONE; BOT; BOT] [BOT; BOT; ONE] 10;
   rec2 3 [ONE; ONE; ZERO] [ZERO; ONE; ONE] 10;
   rec2 3 [ONE; BOT; ZERO] [BOT; BOT; ZERO] 20;
   rec2 3 [ONE; ONE; ZERO] [ONE; BOT; BOT] 20;
   rec2 3 [ONE; ONE; ONE] [BOT; BOT; BOT] 20].
(* query/predicates/lel/tables_test.go *)
Definition LELNTT : list record :=
  [rec2 3 [ONE; BOT; BOT] [ONE; BOT; ZERO] 20;
   rec2 3 [BOT; BOT; BOT] [ONE; ONE; ZERO] 20;
   rec2 3 [ONE; BOT; BOT] [BOT; BOT; ONE] 20;
   rec2 3 [ONE; ONE; ZERO] [ZERO; ONE; ONE] 20;
   rec2 3 [ONE; BOT; ZERO] [BOT; BOT; ZERO] 10;
   rec2 3 [ONE; ONE; ZERO] [ONE; BOT; BOT] 10;
   rec2 3 [ONE; ONE; ONE] [BOT; BOT; BOT] 10].
(* query/predicates/lel/const_const_test.go:runLELConstConst *)
Definition runLELConstConst (tc : record) (neg : bool) : bool :=
  let tree := (mock (Dim tc) []) in
  let ctx := (BasicQContext tree) in
  let f := (QAtom (LelCC (mkQConst ""%string (Val1 tc)) (mkQConst ""%string (Val2 tc)))) in
  let f := if neg then (QNot f) else f in
  EncodeAndRun f ctx (ExpCode tc).
(* query/predicates/lel/const_const_test.go:runGuardedLELConstConst *)
Definition runGuardedLELConstConst (tc : record) (neg : bool) : bool :=
  let tree := (mock (Dim tc) []) in
  let ctx := (BasicQContext tree) in
  let x := (mkQConst "x"%string []) in
  let y := (mkQConst "y"%string []) in
  let ctx := addScope ctx "x"%string in
  let ctx := setScope ctx 1 (Val1 tc) in
  let ctx := addScope ctx "y"%string in
  let ctx := setScope ctx 2 (Val2 tc) in
  let f := (QAtom (LelCC x y)) in
  let f := if neg then (QNot f) else f in
  EncodeAndRun f ctx (ExpCode tc).
(* query/predicates/lel/const_var_test.go:runLELConstVar *)
Definition runLELConstVar (tc : record) (neg : bool) : bool :=
  let tree := (mock (Dim tc) []) in
  let ctx := (BasicQContext tree) in
  let y := "y"%string in
  let c1 := (mkQConst ""%string (Val1 tc)) in
  let c2 := (mkQConst ""%string (Val2 tc)) in
  let f := (QAtom (LelCV c1 y (Some VarGenBotCount))) in
  let f := if neg then (QNot f) else f in
  let f := (QWith y (QAnd (QAnd (QAtom (SubsVC y c2)) (QAtom (SubsCV c2 y))) f)) in
  EncodeAndRun f ctx (ExpCode tc).
(* query/predicates/lel/const_var_test.go:runGuardedLELConstVar *)
Definition runGuardedLELConstVar (tc : record) (neg : bool) : bool :=
  let tree := (mock (Dim tc) []) in
  let ctx := (BasicQContext tree) in
  let x := (mkQConst "x"%string []) in
  let y := "y"%string in
  let c2 := (mkQConst ""%string (Val2 tc)) in
  let ctx := addScope ctx "x"%string in
  let ctx := setScope ctx 1 (Val1 tc) in
  let f := (QAtom (LelCV x y (Some VarGenBotCount))) in
  let f := if neg then (QNot f) else f in
  let f := (QWith y (QAnd (QAnd (QAtom (SubsVC y c2)) (QAtom (SubsCV c2 y))) f)) in
  EncodeAndRun f ctx (ExpCode tc).
(* query/predicates/lel/var_const_test.go:runLELVarConst *)
Definition runLELVarConst (tc : record) (neg : bool) : bool :=
  let tree := (mock (Dim tc) []) in
  let ctx := (BasicQContext tree) in
  let x := "x"%string in
  let c1 := (mkQConst ""%string (Val1 tc)) in
  let c2 := (mkQConst ""%string (Val2 tc)) in
  let f := (QAtom (LelVC x c2 (Some VarGenBotCount))) in
  let f := if neg then (QNot f) else f in
  let f := (QWith x (QAnd (QAnd (QAtom (SubsVC x c1)) (QAtom (SubsCV c1 x))) f)) in
  EncodeAndRun f ctx (ExpCode tc).
(* query/predicates/lel/var_const_test.go:runGuardedLELVarConst *)
Definition runGuardedLELVarConst (tc : record) (neg : bool) : bool :=
  let tree := (mock (Dim tc) []) in
  let ctx := (BasicQContext tree) in
  let x := "x"%string in
  let y := (mkQConst "y"%string []) in
  let c1 := (mkQConst ""%string (Val1 tc)) in
  let ctx := addScope ctx "y"%string in
  let ctx := setScope ctx 1 (Val2 tc) in
  let f := (QAtom (LelVC x y (Some VarGenBotCount))) in
  let f := if neg then (QNot f) else f in
  let f := (QWith x (QAnd (QAnd (QAtom (SubsVC x c1)) (QAtom (SubsCV c1 x))) f)) in
  EncodeAndRun f ctx (ExpCode tc).
(* query/predicates/lel/var_var_test.go:runLELVarVar *)
Definition runLELVarVar (tc : record) (neg : bool) : bool :=
  let tree := (mock (Dim tc) []) in
  let ctx := (BasicQContext tree) in
  let x := "x"%string in
  let y := "y"%string in
  let c1 := (mkQConst ""%string (Val1 tc)) in
  let c2 := (mkQConst ""%string (Val2 tc)) in
  let f := (QAtom (LelVV x y (Some VarGenBotCount))) in
  let f := if neg then (QNot f) else f in
  let f := (QWith x (QWith y (QAnd (QAnd (QAtom (SubsVC x c1)) (QAtom (SubsCV c1 x))) (QAnd (QAnd (QAtom (SubsVC y c2)) (QAtom (SubsCV c2 y))) f)))) in
  EncodeAndRun f ctx (ExpCode tc).
(* query/predicates/isnode/tables_test.go *)
Definition IsNodePTT : list record :=
  [rec1 3 [BOT; BOT; BOT] 10;
   rec1 3 [ZERO; BOT; BOT] 10;
   rec1 3 [ONE; BOT; BOT] 10;
   rec1 3 [ZERO; ZERO; BOT] 10;
   rec1 3 [ONE; BOT; ONE] 10;
   rec1 3 [ZERO; ZERO; ZERO] 10;
   rec1 3 [ZERO; ZERO; ONE] 10;
   rec1 3 [ZERO; ONE; BOT] 10;
   rec1 3 [ONE; BOT; ZERO] 10;
   rec1 3 [ONE; ZERO; ONE] 10;
   rec1 3 [ONE; ONE; ONE] 10;
   rec1 3 [ZERO; ONE; ZERO] 20;
   rec1 3 [ZERO; ONE; ONE] 20;
   rec1 3 [ONE; ZERO; ZERO] 20;
   rec1 3 [ONE; ONE; ZERO] 20;
   rec1 3 [BOT; BOT; ZERO] 20;
   rec1 3 [BOT; BOT; ONE] 20;
   rec1 3 [BOT; ZERO; ZERO] 20;
   rec1 3 [BOT; ONE; ZERO] 20;
   rec1 3 [BOT; ZERO; ONE] 20;
   rec1 3 [BOT; ONE; ONE] 20;
   rec1 3 [ONE; ONE; BOT] 20;
   rec1 3 [ONE; ZERO; BOT] 20;
   rec1 3 [BOT; ZERO; BOT] 20;
   rec1 3 [BOT; ONE; BOT] 20;
   rec1 3 [ZERO; BOT; ZERO] 20;
   rec1 3 [ZERO; BOT; ONE] 20].
(* query/predicates/isnode/tables_test.go *)
Definition IsNodeNTT : list record :=
  [rec1 3 [BOT; BOT; BOT] 20;
   rec1 3 [ZERO; BOT; BOT] 20;
   rec1 3 [ONE; BOT; BOT] 20;
   rec1 3 [ZERO; ZERO; BOT] 20;
   rec1 3 [ONE; BOT; ONE] 20;
   rec1 3 [ZERO; ZERO; ZERO] 20;
   rec1 3 [ZERO; ZERO; ONE] 20;
   rec1 3 [ZERO; ONE; BOT] 20;
   rec1 3 [ONE; BOT; ZERO] 20;
   rec1 3 [ONE; ZERO; ONE] 20;
   rec1 3 [ONE; ONE; ONE] 20;
   rec1 3 [ZERO; ONE; ZERO] 10;
   rec1 3 [ZERO; ONE; ONE] 10;
   rec1 3 [ONE; ZERO; ZERO] 10;
   rec1 3 [ONE; ONE; ZERO] 10;
   rec1 3 [BOT; BOT; ZERO] 10;
   rec1 3 [BOT; BOT; ONE] 10;
   rec1 3 [BOT; ZERO; ZERO] 10;
   rec1 3 [BOT; ONE; ZERO] 10;
   rec1 3 [BOT; ZERO; ONE] 10;
   rec1 3 [BOT; ONE; ONE] 10;
   rec1 3 [ONE; ONE; BOT] 10;
   rec1 3 [ONE; ZERO; BOT] 10;
   rec1 3 [BOT; ZERO; BOT] 10;
   rec1 3 [BOT; ONE; BOT] 10;
   rec1 3 [ZERO; BOT; ZERO] 10;
   rec1 3 [ZERO; BOT; ONE] 10].
(* query/predicates/isnode/tables_test.go *)
Definition IsNodeTree : model := mock 3
  [mkNode false 0 1 6;
   mkNode false 1 2 5;
   mkNode false 2 3 4;
   mkNode true 0 (-1) (-1);
   mkNode false 0 (-1) (-1);
   mkNode true 0 (-1) (-1);
   mkNode false 2 7 8;
   mkNode false 0 (-1) (-1);
   mkNode false 1 9 10;
   mkNode true 0 (-1) (-1);
   mkNode true 0 (-1) (-1)].
(* query/predicates/isnode/const_test.go:runIsNodeConst *)
Definition runIsNodeConst (tc : record) (neg : bool) : bool :=
  let tree := IsNodeTree in
  let ctx := (BasicQContext tree) in
  let c := (mkQConst ""%string (Val tc)) in
  let f := (QAtom (NodeC c)) in
  let f := if neg then (QNot f) else f in
  EncodeAndRun f ctx (ExpCode tc).
(* query/predicates/isnode/const_test.go:runGuardedIsNodeConst *)
Definition runGuardedIsNodeConst (tc : record) (neg : bool) : bool :=
  let tree := IsNodeTree in
  let ctx := (BasicQContext tree) in
  let c := (mkQConst "x"%string []) in
  let ctx := addScope ctx "x"%string in
  let ctx := setScope ctx 1 (Val tc) in
  let f := (QAtom (NodeC c)) in
  let f := if neg then (QNot f) else f in
  EncodeAndRun f ctx (ExpCode tc).
(* query/predicates/isnode/var_test.go:runIsNodeVar *)
Definition runIsNodeVar (tc : record) (neg : bool) : bool :=
  let tree := IsNodeTree in
  let ctx := (BasicQContext tree) in
  let x := "x"%string in
  let c := (mkQConst ""%string (Val tc)) in
  let f := (QAtom (NodeV x (Some VarGenNodeReach))) in
  let f := if neg then (QNot f) else f in
  let f := (QWith x (QAnd (QAnd (QAtom (SubsCV c x)) (QAtom (SubsVC x c))) f)) in
  EncodeAndRun f ctx (ExpCode tc).
(* query/extensions/full/tables_test.go *)
Definition FullPTT : list record :=
  [rec1 3 [BOT; ONE; ZERO] 20;
   rec1 3 [ONE; BOT; ONE] 20;
   rec1 3 [ZERO; ONE; BOT] 20;
   rec1 3 [ZERO; ONE; ONE] 10].
(* query/extensions/full/tables_test.go *)
Definition FullNTT : list record :=
  [rec1 3 [BOT; ONE; ZERO] 10;
   rec1 3 [ONE; BOT; ONE] 10;
   rec1 3 [ZERO; ONE; BOT] 10;
   rec1 3 [ZERO; ONE; ONE] 20].
(* query/extensions/full/const_test.go:runFullConst *)
Definition runFullConst (tc : record) (neg : bool) : bool :=
  let tree := (mock (Dim tc) []) in
  let ctx := (BasicQContext tree) in
  let c := (mkQConst ""%string (Val tc)) in
  let f := (QAtom (FullC c)) in
  let f := if neg then (QNot f) else f in
  EncodeAndRun f ctx (ExpCode tc).
(* query/extensions/full/const_test.go:runGuardedFullConst *)
Definition runGuardedFullConst (tc : record) (neg : bool) : bool :=
  let tree := (mock (Dim tc) []) in
  let ctx := (BasicQContext tree) in
  let c := (mkQConst "x"%string []) in
  let ctx := addScope ctx "x"%string in
  let ctx := setScope ctx 1 (Val tc) in
  let f := (QAtom (FullC c)) in
  let f := if neg then (QNot f) else f in
  EncodeAndRun f ctx (ExpCode tc).
(* query/extensions/full/var_test.go:runFullVar *)
Definition runFullVar (tc : record) (neg : bool) : bool :=
  let tree := (mock (Dim tc) []) in
  let ctx := (BasicQContext tree) in
  let x := "x"%string in
  let c := (mkQConst ""%string (Val tc)) in
  let f := (QAtom (FullV x)) in
  let f := if neg then (QNot f) else f in
  let f := (QWith x (QAnd (QAnd (QAtom (SubsCV c x)) (QAtom (SubsVC x c))) f)) in
  EncodeAndRun f ctx (ExpCode tc).
(* query/extensions/cons/tables_test.go *)
Definition ConsPTT : list record :=
  [rec2 3 [ONE; BOT; BOT] [ONE; BOT; ZERO] 10;
   rec2 3 [ONE; BOT; BOT] [ZERO; BOT; ZERO] 20;
   rec2 3 [ONE; BOT; BOT] [ONE; ONE; ZERO] 10;
   rec2 3 [ONE; BOT; BOT] [ZERO; ONE; ZERO] 20;
   rec2 3 [ONE; ONE; ZERO] [ONE; BOT; BOT] 10;
   rec2 3 [ZERO; ONE; ZERO] [ZERO; BOT; ONE] 20;
   rec2 3 [ONE; ONE; ZERO] [ONE; ONE; ZERO] 10;
   rec2 3 [ZERO; ONE; ZERO] [ZERO; ZERO; ONE] 20].
(* query/extensions/cons/tables_test.go *)
Definition ConsNTT : list record :=
  [rec2 3 [ONE; BOT; BOT] [ONE; BOT; ZERO] 20;
   rec2 3 [ONE; BOT; BOT] [ZERO; BOT; ZERO] 10;
   rec2 3 [ONE; BOT; BOT] [ONE; ONE; ZERO] 20;
   rec2 3 [ONE; BOT; BOT] [ZERO; ONE; ZERO] 10;
   rec2 3 [ONE; ONE; ZERO] [ONE; BOT; BOT] 20;
   rec2 3 [ZERO; ONE; ZERO] [ZERO; BOT; ONE] 10;
   rec2 3 [ONE; ONE; ZERO] [ONE; ONE; ZERO] 20;
   rec2 3 [ZERO; ONE; ZERO] [ZERO; ZERO; ONE] 10].
(* query/extensions/cons/const_const_test.go:runConsConstConst *)
Definition runConsConstConst (tc : record) (neg : bool) : bool :=
  let tree := (mock (Dim tc) []) in
  let ctx := (BasicQContext tree) in
  let f := (QAtom (ConsCC (mkQConst ""%string (Val1 tc)) (mkQConst ""%string (Val2 tc)))) in
  let f := if neg then (QNot f) else f in
  EncodeAndRun f ctx (ExpCode tc).
(* query/extensions/cons/const_const_test.go:runGuardedConsConstConst *)
Definition runGuardedConsConstConst (tc : record) (neg : bool) : bool :=
  let tree := (mock (Dim tc) []) in
  let ctx := (BasicQContext tree) in
  let x := (mkQConst "x"%string []) in
  let y := (mkQConst "y"%string []) in
  let ctx := addScope ctx "x"%string in
  let ctx := setScope ctx 1 (Val1 tc) in
  let ctx := addScope ctx "y"%string in
  let ctx := setScope ctx 2 (Val2 tc) in
  let f := (QAtom (ConsCC x y)) in
  let f := if neg then (QNot f) else f in
  EncodeAndRun f ctx (ExpCode tc).
(* query/extensions/cons/const_var_test.go:runConsConstVar *)
Definition runConsConstVar (tc : record) (neg : bool) : bool :=
  let tree := (mock (Dim tc) []) in
  let ctx := (BasicQContext tree) in
  let y := "y"%string in
  let c1 := (mkQConst ""%string (Val1 tc)) in
  let c2 := (mkQConst ""%string (Val2 tc)) in
  let f := (QAtom (ConsCV c1 y)) in
  let f := if neg then (QNot f) else f in
  let f := (QWith y (QAnd (QAnd (QAtom (SubsVC y c2)) (QAtom (SubsCV c2 y))) f)) in
  EncodeAndRun f ctx (ExpCode tc).
(* query/extensions/cons/const_var_test.go:runGuardedConsConstVar *)
Definition runGuardedConsConstVar (tc : record) (neg : bool) : bool :=
  let tree := (mock (Dim tc) []) in
  let ctx := (BasicQContext tree) in
  let x := (mkQConst "x"%string []) in
  let y := "y"%string in
  let c2 := (mkQConst ""%string (Val2 tc)) in
  let ctx := addScope ctx "x"%string in
  let ctx := setScope ctx 1 (Val1 tc) in
  let f := (QAtom (ConsCV x y)) in
  let f := if neg then (QNot f) else f in
  let f := (QWith y (QAnd (QAnd (QAtom (SubsVC y c2)) (QAtom (SubsCV c2 y))) f)) in
  EncodeAndRun f ctx (ExpCode tc).
(* query/extensions/cons/var_const_test.go:runConsVarConst *)
Definition runConsVarConst (tc : record) (neg : bool) : bool :=
  let tree := (mock (Dim tc) []) in
  let ctx := (BasicQContext tree) in
  let x := "x"%string in
  let c1 := (mkQConst ""%string (Val1 tc)) in
  let c2 := (mkQConst ""%string (Val2 tc)) in
  let f := (QAtom (ConsVC x c2)) in
  let f := if neg then (QNot f) else f in
  let f := (QWith x (QAnd (QAnd (QAtom (SubsVC x c1)) (QAtom (SubsCV c1 x))) f)) in
  EncodeAndRun f ctx (ExpCode tc).
(* query/extensions/cons/var_const_test.go:runGuardedConsVarConst *)
Definition runGuardedConsVarConst (tc : record) (neg : bool) : bool :=
  let tree := (mock (Dim tc) []) in
  let ctx := (BasicQContext tree) in
  let x := "x"%string in
  let y := (mkQConst "y"%string []) in
  let c1 := (mkQConst ""%string (Val1 tc)) in
  let ctx := addScope ctx "y"%string in
  let ctx := setScope ctx 1 (Val2 tc) in
  let f := (QAtom (ConsVC x y)) in
  let f := if neg then (QNot f) else f in
  let f := (QWith x (QAnd (QAnd (QAtom (SubsVC x c1)) (QAtom (SubsCV c1 x))) f)) in
  EncodeAndRun f ctx (ExpCode tc).
(* query/extensions/cons/var_var_test.go:runConsVarVar *)
Definition runConsVarVar (tc : record) (neg : bool) : bool :=
  let tree := (mock (Dim tc) []) in
  let ctx := (BasicQContext tree) in
  let x := "x"%string in
  let y := "y"%string in
  let c1 := (mkQConst ""%string (Val1 tc)) in
  let c2 := (mkQConst ""%string (Val2 tc)) in
  let f := (QAtom (ConsVV x y)) in
  let f := if neg then (QNot f) else f in
  let f := (QWith x (QWith y (QAnd (QAnd (QAtom (SubsVC x c1)) (QAtom (SubsCV c1 x))) (QAnd (QAnd (QAtom (SubsVC y c2)) (QAtom (SubsCV c2 y))) f)))) in
  EncodeAndRun f ctx (ExpCode tc).
(* query/extensions/allcomp/tables_test.go *)
Definition AllPosPTT : list record :=
  [rec1 3 [BOT; BOT; BOT] 20;
   rec1 3 [ZERO; BOT; BOT] 10;
   rec1 3 [ONE; BOT; BOT] 20;
   rec1 3 [ZERO; ZERO; BOT] 10;
   rec1 3 [ZERO; ONE; BOT] 10;
   rec1 3 [ONE; ZERO; BOT] 20;
   rec1 3 [ONE; ONE; BOT] 20;
   rec1 3 [ZERO; ZERO; ZERO] 10;
   rec1 3 [ZERO; ZERO; ONE] 10;
   rec1 3 [ZERO; ONE; ZERO] 10;
   rec1 3 [ZERO; ONE; ONE] 10;
   rec1 3 [ONE; ZERO; ZERO] 20;
   rec1 3 [ONE; ZERO; ONE] 10;
   rec1 3 [ONE; ONE; ZERO] 20;
   rec1 3 [ONE; ONE; ONE] 20;
   rec1 3 [BOT; ZERO; BOT] 20;
   rec1 3 [BOT; ONE; BOT] 20;
   rec1 3 [BOT; ZERO; ZERO] 20;
   rec1 3 [BOT; ZERO; ONE] 10;
   rec1 3 [BOT; ONE; ZERO] 20;
   rec1 3 [BOT; ONE; ONE] 20;
   rec1 3 [BOT; BOT; ZERO] 20;
   rec1 3 [BOT; BOT; ONE] 20;
   rec1 3 [ZERO; BOT; ZERO] 10;
   rec1 3 [ZERO; BOT; ONE] 10;
   rec1 3 [ONE; BOT; ZERO] 20;
   rec1 3 [ONE; BOT; ONE] 20].
(* query/extensions/allcomp/tables_test.go *)
Definition AllPosNTT : list record :=
  [rec1 3 [BOT; BOT; BOT] 10;
   rec1 3 [ZERO; BOT; BOT] 20;
   rec1 3 [ONE; BOT; BOT] 10;
   rec1 3 [ZERO; ZERO; BOT] 20;
   rec1 3 [ZERO; ONE; BOT] 20;
   rec1 3 [ONE; ZERO; BOT] 10;
   rec1 3 [ONE; ONE; BOT] 10;
   rec1 3 [ZERO; ZERO; ZERO] 20;
   rec1 3 [ZERO; ZERO; ONE] 20;
   rec1 3 [ZERO; ONE; ZERO] 20;
   rec1 3 [ZERO; ONE; ONE] 20;
   rec1 3 [ONE; ZERO; ZERO] 10;
   rec1 3 [ONE; ZERO; ONE] 20;
   rec1 3 [ONE; ONE; ZERO] 10;
   rec1 3 [ONE; ONE; ONE] 10;
   rec1 3 [BOT; ZERO; BOT] 10;
   rec1 3 [BOT; ONE; BOT] 10;
   rec1 3 [BOT; ZERO; ZERO] 10;
   rec1 3 [BOT; ZERO; ONE] 20;
   rec1 3 [BOT; ONE; ZERO] 10;
   rec1 3 [BOT; ONE; ONE] 10;
   rec1 3 [BOT; BOT; ZERO] 10;
   rec1 3 [BOT; BOT; ONE] 10;
   rec1 3 [ZERO; BOT; ZERO] 20;
   rec1 3 [ZERO; BOT; ONE] 20;
   rec1 3 [ONE; BOT; ZERO] 10;
   rec1 3 [ONE; BOT; ONE] 10].
(* query/extensions/allcomp/tables_test.go *)
Definition AllNegPTT : list record :=
  [rec1 3 [BOT; BOT; BOT] 20;
   rec1 3 [ZERO; BOT; BOT] 20;
   rec1 3 [ONE; BOT; BOT] 20;
   rec1 3 [ZERO; ZERO; BOT] 20;
   rec1 3 [ZERO; ONE; BOT] 20;
   rec1 3 [ONE; ZERO; BOT] 20;
   rec1 3 [ONE; ONE; BOT] 10;
   rec1 3 [ZERO; ZERO; ZERO] 20;
   rec1 3 [ZERO; ZERO; ONE] 20;
   rec1 3 [ZERO; ONE; ZERO] 20;
   rec1 3 [ZERO; ONE; ONE] 20;
   rec1 3 [ONE; ZERO; ZERO] 10;
   rec1 3 [ONE; ZERO; ONE] 20;
   rec1 3 [ONE; ONE; ZERO] 10;
   rec1 3 [ONE; ONE; ONE] 10;
   rec1 3 [BOT; ZERO; BOT] 20;
   rec1 3 [BOT; ONE; BOT] 20;
   rec1 3 [BOT; ZERO; ZERO] 20;
   rec1 3 [BOT; ZERO; ONE] 20;
   rec1 3 [BOT; ONE; ZERO] 20;
   rec1 3 [BOT; ONE; ONE] 20;
   rec1 3 [BOT; BOT; ZERO] 20;
   rec1 3 [BOT; BOT; ONE] 20;
   rec1 3 [ZERO; BOT; ZERO] 20;
   rec1 3 [ZERO; BOT; ONE] 20;
   rec1 3 [ONE; BOT; ZERO] 10;
   rec1 3 [ONE; BOT; ONE] 20].
(* query/extensions/allcomp/tables_test.go *)
Definition AllNegNTT : list record :=
  [rec1 3 [BOT; BOT; BOT] 10;
   rec1 3 [ZERO; BOT; BOT] 10;
   rec1 3 [ONE; BOT; BOT] 10;
   rec1 3 [ZERO; ZERO; BOT] 10;
   rec1 3 [ZERO; ONE; BOT] 10;
   rec1 3 [ONE; ZERO; BOT] 10;
   rec1 3 [ONE; ONE; BOT] 20;
   rec1 3 [ZERO; ZERO; ZERO] 10;
   rec1 3 [ZERO; ZERO; ONE] 10;
   rec1 3 [ZERO; ONE; ZERO] 10;
   rec1 3 [ZERO; ONE; ONE] 10;
   rec1 3 [ONE; ZERO; ZERO] 20;
   rec1 3 [ONE; ZERO; ONE] 10;
   rec1 3 [ONE; ONE; ZERO] 20;
   rec1 3 [ONE; ONE; ONE] 20;
   rec1 3 [BOT; ZERO; BOT] 10;
   rec1 3 [BOT; ONE; BOT] 10;
   rec1 3 [BOT; ZERO; ZERO] 10;
   rec1 3 [BOT; ZERO; ONE] 10;
   rec1 3 [BOT; ONE; ZERO] 10;
   rec1 3 [BOT; ONE; ONE] 10;
   rec1 3 [BOT; BOT; ZERO] 10;
   rec1 3 [BOT; BOT; ONE] 10;
   rec1 3 [ZERO; BOT; ZERO] 10;
   rec1 3 [ZERO; BOT; ONE] 10;
   rec1 3 [ONE; BOT; ZERO] 20;
   rec1 3 [ONE; BOT; ONE] 10].
(* query/extensions/allcomp/tables_test.go *)
Definition AllCompTree : model := mock 3
  [mkNode false 0 1 6;
   mkNode false 1 2 5;
   mkNode false 2 3 4;
   mkNode true 0 (-1) (-1);
   mkNode true 0 (-1) (-1);
   mkNode true 0 (-1) (-1);
   mkNode false 2 7 8;
   mkNode false 0 (-1) (-1);
   mkNode false 1 9 10;
   mkNode true 0 (-1) (-1);
   mkNode false 0 (-1) (-1)].
(* query/extensions/allcomp/const_test.go:runAllCompConst *)
Definition runAllCompConst (tc : record) (val : bool) (neg : bool) : bool :=
  let tree := AllCompTree in
  let ctx := (BasicQContext tree) in
  let c := (mkQConst ""%string (Val tc)) in
  let f := (QAtom (AllC c val)) in
  let f := if neg then (QNot f) else f in
  EncodeAndRun f ctx (ExpCode tc).
(* query/extensions/allcomp/const_test.go:runGuardedAllCompConst *)
Definition runGuardedAllCompConst (tc : record) (val : bool) (neg : bool) : bool :=
  let tree := AllCompTree in
  let ctx := (BasicQContext tree) in
  let c := (mkQConst "x"%string []) in
  let ctx := addScope ctx "x"%string in
  let ctx := setScope ctx 1 (Val tc) in
  let f := (QAtom (AllC c val)) in
  let f := if neg then (QNot f) else f in
  EncodeAndRun f ctx (ExpCode tc).
(* query/extensions/allcomp/var_test.go:runAllCompVar *)
Definition runAllCompVar (tc : record) (val : bool) (neg : bool) : bool :=
  let tree := AllCompTree in
  let ctx := (BasicQContext tree) in
  let x := "x"%string in
  let c := (mkQConst ""%string (Val tc)) in
  let f := (QAtom (AllV x val (Some VarGenNodeReach))) in
  let f := if neg then (QNot f) else f in
  let f := (QWith x (QAnd (QAnd (QAtom (SubsCV c x)) (QAtom (SubsVC x c))) f)) in
  EncodeAndRun f ctx (ExpCode tc).
(* query/extensions/dfs/tables_test.go *)
Definition DFSPTT : list record :=
  [rec1 3 [ZERO; ZERO; ZERO] 10;
   rec1 3 [ONE; ZERO; ZERO] 10;
   rec1 3 [ONE; ZERO; ONE] 10;
   rec1 3 [BOT; ONE; BOT] 10;
   rec1 3 [BOT; ZERO; BOT] 10;
   rec1 3 [BOT; ZERO; ONE] 10;
   rec1 3 [ONE; ZERO; BOT] 10;
   rec1 3 [ZERO; BOT; BOT] 20;
   rec1 3 [ZERO; BOT; ONE] 20;
   rec1 3 [BOT; BOT; ONE] 20].
(* query/extensions/dfs/tables_test.go *)
Definition DFSNTT : list record :=
  [rec1 3 [ZERO; ZERO; ZERO] 20;
   rec1 3 [ONE; ZERO; ZERO] 20;
   rec1 3 [ONE; ZERO; ONE] 20;
   rec1 3 [BOT; ONE; BOT] 20;
   rec1 3 [BOT; ZERO; BOT] 20;
   rec1 3 [BOT; ZERO; ONE] 20;
   rec1 3 [ONE; ZERO; BOT] 20;
   rec1 3 [ZERO; BOT; BOT] 10;
   rec1 3 [ZERO; BOT; ONE] 10;
   rec1 3 [BOT; BOT; ONE] 10].
(* query/extensions/dfs/tables_test.go *)
Definition DFSTree : model := mock 3
  [mkNode false 0 1 8;
   mkNode false 1 2 5;
   mkNode false 2 3 4;
   mkNode false 0 (-1) (-1);
   mkNode false 0 (-1) (-1);
   mkNode false 2 6 7;
   mkNode true 0 (-1) (-1);
   mkNode true 0 (-1) (-1);
   mkNode false 2 9 12;
   mkNode false 1 10 11;
   mkNode false 0 (-1) (-1);
   mkNode true 0 (-1) (-1);
   mkNode false 1 13 14;
   mkNode false 0 (-1) (-1);
   mkNode true 0 (-1) (-1)].
(* query/extensions/dfs/const_test.go:runDFSConst *)
Definition runDFSConst (tc : record) (neg : bool) : bool :=
  let tree := DFSTree in
  let ctx := (BasicQContext tree) in
  let c := (mkQConst ""%string (Val tc)) in
  let f := (QAtom (DfsC c)) in
  let f := if neg then (QNot f) else f in
  EncodeAndRun f ctx (ExpCode tc).
(* query/extensions/dfs/const_test.go:runGuardedDFSConst *)
Definition runGuardedDFSConst (tc : record) (neg : bool) : bool :=
  let tree := DFSTree in
  let ctx := (BasicQContext tree) in
  let c := (mkQConst "x"%string []) in
  let ctx := addScope ctx "x"%string in
  let ctx := setScope ctx 1 (Val tc) in
  let f := (QAtom (DfsC c)) in
  let f := if neg then (QNot f) else f in
  EncodeAndRun f ctx (ExpCode tc).
(* query/extensions/dfs/var_test.go:runDFSVar *)
Definition runDFSVar (tc : record) (neg : bool) : bool :=
  let tree := DFSTree in
  let ctx := (BasicQContext tree) in
  let x := "x"%string in
  let c := (mkQConst ""%string (Val tc)) in
  let f := (QAtom (DfsV x)) in
  let f := if neg then (QNot f) else f in
  let f := (QWith x (QAnd (QAnd (QAtom (SubsCV c x)) (QAtom (SubsVC x c))) f)) in
  EncodeAndRun f ctx (ExpCode tc).
(* query/extensions/hepr/tables_test.go *)
Definition HEPRPTT : list record :=
  [recP 4 [BOT; BOT; BOT; BOT] [ZERO; ZERO; ZERO; ZERO] [0] 20;
   recP 4 [BOT; BOT; BOT; ONE] [ZERO; ZERO; ZERO; ZERO] [0] 20;
   recP 4 [BOT; ONE; BOT; ONE] [ZERO; ZERO; ZERO; ZERO] [0] 20;
   recP 4 [ONE; ONE; BOT; ONE] [ZERO; ZERO; ZERO; ZERO] [0] 10;
   recP 4 [ONE; ONE; ONE; ONE] [ZERO; ZERO; ZERO; ZERO] [0] 10;
   recP 4 [BOT; BOT; ONE; ONE] [BOT; ZERO; ZERO; BOT] [0; 2; 3] 10;
   recP 4 [BOT; BOT; ZERO; ONE] [BOT; ZERO; ZERO; BOT] [0; 1; 3] 20;
   recP 4 [ONE; ONE; ZERO; ONE] [ONE; ZERO; ZERO; ONE] [0; 1; 3; 2] 10;
   recP 4 [ONE; BOT; ZERO; ONE] [ONE; ZERO; ZERO; BOT] [0; 3; 2; 1] 10;
   recP 4 [BOT; BOT; ZERO; ONE] [ONE; ZERO; BOT; BOT] [0; 3; 2; 1] 20;
   recP 4 [ZERO; ONE; BOT; ONE] [ONE; BOT; ZERO; ONE] [3; 1; 0] 10;
   recP 4 [ZERO; BOT; ONE; ONE] [ONE; ZERO; BOT; ONE] [3; 0; 1] 20].
(* query/extensions/hepr/tables_test.go *)
Definition HEPRNTT : list record :=
  [recP 4 [BOT; BOT; BOT; BOT] [ZERO; ZERO; ZERO; ZERO] [0] 10;
   recP 4 [BOT; BOT; BOT; ONE] [ZERO; ZERO; ZERO; ZERO] [0] 10;
   recP 4 [BOT; ONE; BOT; ONE] [ZERO; ZERO; ZERO; ZERO] [0] 10;
   recP 4 [ONE; ONE; BOT; ONE] [ZERO; ZERO; ZERO; ZERO] [0] 20;
   recP 4 [ONE; ONE; ONE; ONE] [ZERO; ZERO; ZERO; ZERO] [0] 20;
   recP 4 [BOT; BOT; ONE; ONE] [BOT; ZERO; ZERO; BOT] [0; 2; 3] 20;
   recP 4 [BOT; BOT; ZERO; ONE] [BOT; ZERO; ZERO; BOT] [0; 1; 3] 10;
   recP 4 [ONE; ONE; ZERO; ONE] [ONE; ZERO; ZERO; ONE] [0; 1; 3; 2] 20;
   recP 4 [ONE; BOT; ZERO; ONE] [ONE; ZERO; ZERO; BOT] [0; 3; 2; 1] 20;
   recP 4 [BOT; BOT; ZERO; ONE] [ONE; ZERO; BOT; BOT] [0; 3; 2; 1] 10;
   recP 4 [ZERO; ONE; BOT; ONE] [ONE; BOT; ZERO; ONE] [3; 1; 0] 20;
   recP 4 [ZERO; BOT; ONE; ONE] [ONE; ZERO; BOT; ONE] [3; 0; 1] 10].
(* query/extensions/hepr/const_const_test.go:runHEPRConstConst *)
Definition runHEPRConstConst (tc : record) (neg : bool) : bool :=
  let tree := (mock (Dim tc) []) in
  let ctx := (BasicQContext tree) in
  let f := (QAtom (HeprCC (mkQConst ""%string (Val1 tc)) (mkQConst ""%string (Val2 tc)) (Pref tc))) in
  let f := if neg then (QNot f) else f in
  EncodeAndRun f ctx (ExpCode tc).
(* query/extensions/hepr/const_const_test.go:runGuardedHEPRConstConst *)
Definition runGuardedHEPRConstConst (tc : record) (neg : bool) : bool :=
  let tree := (mock (Dim tc) []) in
  let ctx := (BasicQContext tree) in
  let x := (mkQConst "x"%string []) in
  let y := (mkQConst "y"%string []) in
  let ctx := addScope ctx "x"%string in
  let ctx := setScope ctx 1 (Val1 tc) in
  let ctx := addScope ctx "y"%string in
  let ctx := setScope ctx 2 (Val2 tc) in
  let f := (QAtom (HeprCC x y (Pref tc))) in
  let f := if neg then (QNot f) else f in
  EncodeAndRun f ctx (ExpCode tc).
(* query/extensions/hepr/const_var_test.go:runHEPRConstVar *)
Definition runHEPRConstVar (tc : record) (neg : bool) : bool :=
  let tree := (mock (Dim tc) []) in
  let ctx := (BasicQContext tree) in
  let y := "y"%string in
  let c1 := (mkQConst ""%string (Val1 tc)) in
  let c2 := (mkQConst ""%string (Val2 tc)) in
  let f := (QAtom (HeprCV c1 y (Pref tc) (Some VarGenFeaturePreference))) in
  let f := if neg then (QNot f) else f in
  let f := (QWith y (QAnd (QAnd (QAtom (SubsVC y c2)) (QAtom (SubsCV c2 y))) f)) in
  EncodeAndRun f ctx (ExpCode tc).
(* query/extensions/hepr/const_var_test.go:runGuardedHEPRConstVar *)
Definition runGuardedHEPRConstVar (tc : record) (neg : bool) : bool :=
  let tree := (mock (Dim tc) []) in
  let ctx := (BasicQContext tree) in
  let x := (mkQConst "x"%string []) in
  let y := "y"%string in
  let c2 := (mkQConst ""%string (Val2 tc)) in
  let ctx := addScope ctx "x"%string in
  let ctx := setScope ctx 1 (Val1 tc) in
  let f := (QAtom (HeprCV x y (Pref tc) (Some VarGenFeaturePreference))) in
  let f := if neg then (QNot f) else f in
  let f := (QWith y (QAnd (QAnd (QAtom (SubsVC y c2)) (QAtom (SubsCV c2 y))) f)) in
  EncodeAndRun f ctx (ExpCode tc).
(* query/extensions/hepr/var_const_test.go:runHEPRVarConst *)
Definition runHEPRVarConst (tc : record) (neg : bool) : bool :=
  let tree := (mock (Dim tc) []) in
  let ctx := (BasicQContext tree) in
  let x := "x"%string in
  let c1 := (mkQConst ""%string (Val1 tc)) in
  let c2 := (mkQConst ""%string (Val2 tc)) in
  let f := (QAtom (HeprVC x c2 (Pref tc) (Some VarGenFeaturePreference))) in
  let f := if neg then (QNot f) else f in
  let f := (QWith x (QAnd (QAnd (QAtom (SubsVC x c1)) (QAtom (SubsCV c1 x))) f)) in
  EncodeAndRun f ctx (ExpCode tc).
(* query/extensions/hepr/var_const_test.go:runGuardedHEPRVarConst *)
Definition runGuardedHEPRVarConst (tc : record) (neg : bool) : bool :=
  let tree := (mock (Dim tc) []) in
  let ctx := (BasicQContext tree) in
  let x := "x"%string in
  let y := (mkQConst "y"%string []) in
  let c1 := (mkQConst ""%string (Val1 tc)) in
  let ctx := addScope ctx "y"%string in
  let ctx := setScope ctx 1 (Val2 tc) in
  let f := (QAtom (HeprVC x y (Pref tc) (Some VarGenFeaturePreference))) in
  let f := if neg then (QNot f) else f in
  let f := (QWith x (QAnd (QAnd (QAtom (SubsVC x c1)) (QAtom (SubsCV c1 x))) f)) in
  EncodeAndRun f ctx (ExpCode tc).
(* query/extensions/hepr/var_var_test.go:runHEPRVarVar *)
Definition runHEPRVarVar (tc : record) (neg : bool) : bool :=
  let tree := (mock (Dim tc) []) in
  let ctx := (BasicQContext tree) in
  let x := "x"%string in
  let y := "y"%string in
  let c1 := (mkQConst ""%string (Val1 tc)) in
  let c2 := (mkQConst ""%string (Val2 tc)) in
  let f := (QAtom (HeprVV x y (Pref tc) (Some VarGenFeaturePreference))) in
  let f := if neg then (QNot f) else f in
  let f := (QWith x (QWith y (QAnd (QAnd (QAtom (SubsVC x c1)) (QAtom (SubsCV c1 x))) (QAnd (QAnd (QAtom (SubsVC y c2)) (QAtom (SubsCV c2 y))) f)))) in
  EncodeAndRun f ctx (ExpCode tc).
(* query/extensions/leh/tables_test.go *)
Definition LEHPTT : list record :=
  [rec3 3 [ZERO; ZERO; ZERO] [ZERO; ZERO; ONE] [ONE; ONE; ZERO] 10;
   rec3 3 [ZERO; ZERO; ZERO] [ZERO; ZERO; ONE] [ZERO; ONE; ONE] 10;
   rec3 3 [ZERO; ZERO; ZERO] [ZERO; ZERO; ONE] [ONE; ZERO; ZERO] 10;
   rec3 3 [ZERO; ZERO; ZERO] [ZERO; ZERO; ONE] [ZERO; ONE; ZERO] 10;
   rec3 3 [ZERO; ZERO; ZERO] [ZERO; ZERO; ONE] [ZERO; ZERO; ONE] 10;
   rec3 3 [ZERO; ZERO; ZERO] [ONE; ZERO; ONE] [ZERO; ZERO; ONE] 20;
   rec3 3 [ONE; BOT; BOT] [ONE; ONE; ZERO] [ONE; ONE; ZERO] 20;
   rec3 3 [ONE; ZERO; ZERO] [ONE; ONE; BOT] [ONE; ONE; ZERO] 20;
   rec3 3 [ONE; ONE; ONE] [ONE; ONE; ZERO] [ONE; BOT; ZERO] 20].
(* query/extensions/leh/tables_test.go *)
Definition LEHNTT : list record :=
  [rec3 3 [ZERO; ZERO; ZERO] [ZERO; ZERO; ONE] [ONE; ONE; ZERO] 20;
   rec3 3 [ZERO; ZERO; ZERO] [ZERO; ZERO; ONE] [ZERO; ONE; ONE] 20;
   rec3 3 [ZERO; ZERO; ZERO] [ZERO; ZERO; ONE] [ONE; ZERO; ZERO] 20;
   rec3 3 [ZERO; ZERO; ZERO] [ZERO; ZERO; ONE] [ZERO; ONE; ZERO] 20;
   rec3 3 [ZERO; ZERO; ZERO] [ZERO; ZERO; ONE] [ZERO; ZERO; ONE] 20;
   rec3 3 [ZERO; ZERO; ZERO] [ONE; ZERO; ONE] [ZERO; ZERO; ONE] 10;
   rec3 3 [ONE; BOT; BOT] [ONE; ONE; ZERO] [ONE; ONE; ZERO] 10;
   rec3 3 [ONE; ZERO; ZERO] [ONE; ONE; BOT] [ONE; ONE; ZERO] 10;
   rec3 3 [ONE; ONE; ONE] [ONE; ONE; ZERO] [ONE; BOT; ZERO] 10].
(* query/extensions/leh/const_const_const_test.go:runLEHConstConstConst *)
Definition runLEHConstConstConst (tc : record) (neg : bool) : bool :=
  let tree := (mock (Dim tc) []) in
  let ctx := (BasicQContext tree) in
  let c1 := (mkQConst ""%string (Val1 tc)) in
  let c2 := (mkQConst ""%string (Val2 tc)) in
  let c3 := (mkQConst ""%string (Val3 tc)) in
  let f := (QAtom (LehCCC c1 c2 c3)) in
  let f := if neg then (QNot f) else f in
  EncodeAndRun f ctx (ExpCode tc).
(* query/extensions/leh/const_const_const_test.go:runGuardedLEHConstConstConst *)
Definition runGuardedLEHConstConstConst (tc : record) (neg : bool) : bool :=
  let tree := (mock (Dim tc) []) in
  let ctx := (BasicQContext tree) in
  let x := (mkQConst "x"%string []) in
  let y := (mkQConst "y"%string []) in
  let z := (mkQConst "z"%string []) in
  let ctx := addScope ctx "x"%string in
  let ctx := setScope ctx 1 (Val1 tc) in
  let ctx := addScope ctx "y"%string in
  let ctx := setScope ctx 2 (Val2 tc) in
  let ctx := addScope ctx "z"%string in
  let ctx := setScope ctx 3 (Val3 tc) in
  let f := (QAtom (LehCCC x y z)) in
  let f := if neg then (QNot f) else f in
  EncodeAndRun f ctx (ExpCode tc).
(* query/extensions/leh/const_const_var_test.go:runLEHConstConstVar *)
Definition runLEHConstConstVar (tc : record) (neg : bool) : bool :=
  let tree := (mock (Dim tc) []) in
  let ctx := (BasicQContext tree) in
  let z := "z"%string in
  let c1 := (mkQConst ""%string (Val1 tc)) in
  let c2 := (mkQConst ""%string (Val2 tc)) in
  let c3 := (mkQConst ""%string (Val3 tc)) in
  let f := (QAtom (LehCCV c1 c2 z (Some VarGenHammingDistance))) in
  let f := if neg then (QNot f) else f in
  let f := (QWith z (QAnd (QAnd (QAtom (SubsVC z c3)) (QAtom (SubsCV c3 z))) f)) in
  EncodeAndRun f ctx (ExpCode tc).
(* query/extensions/leh/const_const_var_test.go:runGuardedLEHConstConstVar *)
Definition runGuardedLEHConstConstVar (tc : record) (neg : bool) : bool :=
  let tree := (mock (Dim tc) []) in
  let ctx := (BasicQContext tree) in
  let x := (mkQConst "x"%string []) in
  let y := (mkQConst "y"%string []) in
  let z := "z"%string in
  let c3 := (mkQConst ""%string (Val3 tc)) in
  let ctx := addScope ctx "x"%string in
  let ctx := setScope ctx 1 (Val1 tc) in
  let ctx := addScope ctx "y"%string in
  let ctx := setScope ctx 2 (Val2 tc) in
  let f := (QAtom (LehCCV x y z (Some VarGenHammingDistance))) in
  let f := if neg then (QNot f) else f in
  let f := (QWith z (QAnd (QAnd (QAtom (SubsVC z c3)) (QAtom (SubsCV c3 z))) f)) in
  EncodeAndRun f ctx (ExpCode tc).
(* query/extensions/leh/const_var_const_test.go:runLEHConstVarConst *)
Definition runLEHConstVarConst (tc : record) (neg : bool) : bool :=
  let tree := (mock (Dim tc) []) in
  let ctx := (BasicQContext tree) in
  let y := "y"%string in
  let c1 := (mkQConst ""%string (Val1 tc)) in
  let c2 := (mkQConst ""%string (Val2 tc)) in
  let c3 := (mkQConst ""%string (Val3 tc)) in
  let f := (QAtom (LehCVC c1 y c3 (Some VarGenHammingDistance))) in
  let f := if neg then (QNot f) else f in
  let f := (QWith y (QAnd (QAnd (QAtom (SubsVC y c2)) (QAtom (SubsCV c2 y))) f)) in
  EncodeAndRun f ctx (ExpCode tc).
(* query/extensions/leh/const_var_const_test.go:runGuardedLEHConstVarConst *)
Definition runGuardedLEHConstVarConst (tc : record) (neg : bool) : bool :=
  let tree := (mock (Dim tc) []) in
  let ctx := (BasicQContext tree) in
  let x := (mkQConst "x"%string []) in
  let y := "y"%string in
  let z := (mkQConst "z"%string []) in
  let c2 := (mkQConst ""%string (Val2 tc)) in
  let ctx := addScope ctx "x"%string in
  let ctx := setScope ctx 1 (Val1 tc) in
  let ctx := addScope ctx "z"%string in
  let ctx := setScope ctx 2 (Val3 tc) in
  let f := (QAtom (LehCVC x y z (Some VarGenHammingDistance))) in
  let f := if neg then (QNot f) else f in
  let f := (QWith y (QAnd (QAnd (QAtom (SubsVC y c2)) (QAtom (SubsCV c2 y))) f)) in
  EncodeAndRun f ctx (ExpCode tc).
(* query/extensions/leh/const_var_var_test.go:runLEHConstVarVar *)
Definition runLEHConstVarVar (tc : record) (neg : bool) : bool :=
  let tree := (mock (Dim tc) []) in
  let ctx := (BasicQContext tree) in
  let y := "y"%string in
  let z := "z"%string in
  let c1 := (mkQConst ""%string (Val1 tc)) in
  let c2 := (mkQConst ""%string (Val2 tc)) in
  let c3 := (mkQConst ""%string (Val3 tc)) in
  let f := (QAtom (LehCVV c1 y z (Some VarGenHammingDistance))) in
  let f := if neg then (QNot f) else f in
  let f := (QWith y (QWith z (QAnd (QAnd (QAtom (SubsVC y c2)) (QAtom (SubsCV c2 y))) (QAnd (QAnd (QAtom (SubsVC z c3)) (QAtom (SubsCV c3 z))) f)))) in
  EncodeAndRun f ctx (ExpCode tc).
(* query/extensions/leh/const_var_var_test.go:runGuardedLEHConstVarVar *)
Definition runGuardedLEHConstVarVar (tc : record) (neg : bool) : bool :=
  let tree := (mock (Dim tc) []) in
  let ctx := (BasicQContext tree) in
  let x := (mkQConst "x"%string []) in
  let y := "y"%string in
  let z := "z"%string in
  let c2 := (mkQConst ""%string (Val2 tc)) in
  let c3 := (mkQConst ""%string (Val3 tc)) in
  let ctx := addScope ctx "x"%string in
  let ctx := setScope ctx 1 (Val1 tc) in
  let f := (QAtom (LehCVV x y z (Some VarGenHammingDistance))) in
  let f := if neg then (QNot f) else f in
  let f := (QWith y (QWith z (QAnd (QAnd (QAtom (SubsVC y c2)) (QAtom (SubsCV c2 y))) (QAnd (QAnd (QAtom (SubsVC z c3)) (QAtom (SubsCV c3 z))) f)))) in
  EncodeAndRun f ctx (ExpCode tc).
(* query/extensions/leh/var_const_const_test.go:runLEHVarConstConst *)
Definition runLEHVarConstConst (tc : record) (neg : bool) : bool :=
  let tree := (mock (Dim tc) []) in
  let ctx := (BasicQContext tree) in
  let x := "x"%string in
  let c1 := (mkQConst ""%string (Val1 tc)) in
  let c2 := (mkQConst ""%string (Val2 tc)) in
  let c3 := (mkQConst ""%string (Val3 tc)) in
  let f := (QAtom (LehVCC x c2 c3 (Some VarGenHammingDistance))) in
  let f := if neg then (QNot f) else f in
  let f := (QWith x (QAnd (QAnd (QAtom (SubsVC x c1)) (QAtom (SubsCV c1 x))) f)) in
  EncodeAndRun f ctx (ExpCode tc).
(* query/extensions/leh/var_const_const_test.go:runGuardedLEHVarConstConst *)
Definition runGuardedLEHVarConstConst (tc : record) (neg : bool) : bool :=
  let tree := (mock (Dim tc) []) in
  let ctx := (BasicQContext tree) in
  let x := "x"%string in
  let y := (mkQConst "y"%string []) in
  let z := (mkQConst "z"%string []) in
  let c1 := (mkQConst ""%string (Val1 tc)) in
  let ctx := addScope ctx "y"%string in
  let ctx := setScope ctx 1 (Val2 tc) in
  let ctx := addScope ctx "z"%string in
  let ctx := setScope ctx 2 (Val3 tc) in
  let f := (QAtom (LehVCC x y z (Some VarGenHammingDistance))) in
  let f := if neg then (QNot f) else f in
  let f := (QWith x (QAnd (QAnd (QAtom (SubsVC x c1)) (QAtom (SubsCV c1 x))) f)) in
  EncodeAndRun f ctx (ExpCode tc).
(* query/extensions/leh/var_const_var_test.go:runLEHVarConstVar *)
Definition runLEHVarConstVar (tc : record) (neg : bool) : bool :=
  let tree := (mock (Dim tc) []) in
  let ctx := (BasicQContext tree) in
  let x := "x"%string in
  let z := "z"%string in
  let c1 := (mkQConst ""%string (Val1 tc)) in
  let c2 := (mkQConst ""%string (Val2 tc)) in
  let c3 := (mkQConst ""%string (Val3 tc)) in
  let f := (QAtom (LehVCV x c2 z (Some VarGenHammingDistance) (Some VarGenEqualFeat))) in
  let f := if neg then (QNot f) else f in
  let f := (QWith x (QWith z (QAnd (QAnd (QAtom (SubsVC x c1)) (QAtom (SubsCV c1 x))) (QAnd (QAnd (QAtom (SubsVC z c3)) (QAtom (SubsCV c3 z))) f)))) in
  EncodeAndRun f ctx (ExpCode tc).
(* query/extensions/leh/var_const_var_test.go:runGuardedLEHVarConstVar *)
Definition runGuardedLEHVarConstVar (tc : record) (neg : bool) : bool :=
  let tree := (mock (Dim tc) []) in
  let ctx := (BasicQContext tree) in
  let x := "x"%string in
  let y := (mkQConst "y"%string []) in
  let z := "z"%string in
  let c1 := (mkQConst ""%string (Val1 tc)) in
  let c3 := (mkQConst ""%string (Val3 tc)) in
  let ctx := addScope ctx "y"%string in
  let ctx := setScope ctx 1 (Val2 tc) in
  let f := (QAtom (LehVCV x y z (Some VarGenHammingDistance) (Some VarGenEqualFeat))) in
  let f := if neg then (QNot f) else f in
  let f := (QWith x (QWith z (QAnd (QAnd (QAtom (SubsVC x c1)) (QAtom (SubsCV c1 x))) (QAnd (QAnd (QAtom (SubsVC z c3)) (QAtom (SubsCV c3 z))) f)))) in
  EncodeAndRun f ctx (ExpCode tc).
(* query/extensions/leh/var_var_const_test.go:runLEHVarVarConst *)
Definition runLEHVarVarConst (tc : record) (neg : bool) : bool :=
  let tree := (mock (Dim tc) []) in
  let ctx := (BasicQContext tree) in
  let x := "x"%string in
  let y := "y"%string in
  let c1 := (mkQConst ""%string (Val1 tc)) in
  let c2 := (mkQConst ""%string (Val2 tc)) in
  let c3 := (mkQConst ""%string (Val3 tc)) in
  let f := (QAtom (LehVVC x y c3 (Some VarGenHammingDistance) (Some VarGenEqualFeat))) in
  let f := if neg then (QNot f) else f in
  let f := (QWith x (QWith y (QAnd (QAnd (QAtom (SubsVC x c1)) (QAtom (SubsCV c1 x))) (QAnd (QAnd (QAtom (SubsVC y c2)) (QAtom (SubsCV c2 y))) f)))) in
  EncodeAndRun f ctx (ExpCode tc).
(* query/extensions/leh/var_var_const_test.go:runGuardedLEHVarVarConst *)
Definition runGuardedLEHVarVarConst (tc : record) (neg : bool) : bool :=
  let tree := (mock (Dim tc) []) in
  let ctx := (BasicQContext tree) in
  let x := "x"%string in
  let y := "y"%string in
  let z := (mkQConst "z"%string []) in
  let c1 := (mkQConst ""%string (Val1 tc)) in
  let c2 := (mkQConst ""%string (Val2 tc)) in
  let ctx := addScope ctx "z"%string in
  let ctx := setScope ctx 1 (Val3 tc) in
  let f := (QAtom (LehVVC x y z (Some VarGenHammingDistance) (Some VarGenEqualFeat))) in
  let f := if neg then (QNot f) else f in
  let f := (QWith x (QWith y (QAnd (QAnd (QAtom (SubsVC x c1)) (QAtom (SubsCV c1 x))) (QAnd (QAnd (QAtom (SubsVC y c2)) (QAtom (SubsCV c2 y))) f)))) in
  EncodeAndRun f ctx (ExpCode tc).
(* query/extensions/leh/var_var_var_test.go:runLEHVarVarVar *)
Definition runLEHVarVarVar (tc : record) (neg : bool) : bool :=
  let tree := (mock (Dim tc) []) in
  let ctx := (BasicQContext tree) in
  let x := "x"%string in
  let y := "y"%string in
  let z := "z"%string in
  let c1 := (mkQConst ""%string (Val1 tc)) in
  let c2 := (mkQConst ""%string (Val2 tc)) in
  let c3 := (mkQConst ""%string (Val3 tc)) in
  let f := (QAtom (LehVVV x y z (Some VarGenHammingDistance) (Some VarGenEqualFeat))) in
  let f := if neg then (QNot f) else f in
  let f := (QWith x (QWith y (QWith z (QAnd (QAnd (QAtom (SubsVC x c1)) (QAtom (SubsCV c1 x))) (QAnd (QAnd (QAtom (SubsVC y c2)) (QAtom (SubsCV c2 y))) (QAnd (QAnd (QAtom (SubsVC z c3)) (QAtom (SubsCV c3 z))) f)))))) in
  EncodeAndRun f ctx (ExpCode tc).

(* query/predicates/subsumption/const_const_test.go *)
Example t_subsumption_const_const :
  (* TestConstConst_Encoding, TestConstConst_Encoding_Guarded, TestNotConstConst_Encoding, TestNotConstConst_Encoding_Guarded, TestConstConst_Encoding_WrongDim, TestConstConst_Encoding_NilCtx *)
  forallb id [
    forallb (fun tc => runSubsumptionConstConst tc false) SubsumptionPTT;
    forallb (fun tc => runGuardedSubsumptionConstConst tc false) SubsumptionPTT;
    forallb (fun tc => runSubsumptionConstConst tc true) SubsumptionNTT;
    forallb (fun tc => runGuardedSubsumptionConstConst tc true) SubsumptionNTT;
    (let tree := (mock 4 []) in let ctx := (BasicQContext tree) in let x := (mkQConst ""%string [BOT; BOT; BOT]) in let y := (mkQConst ""%string [BOT; BOT; BOT]) in let f := (QAtom (SubsCC x y)) in is_err (enc f ctx));
    (let x := (mkQConst ""%string [BOT]) in let y := (mkQConst ""%string [BOT]) in let f := (QAtom (SubsCC x y)) in is_error "Invalid encoding with nil ctx"%string (enc_nilctx f))] = true.
Proof. vm_compute. reflexivity. Qed.

(* query/predicates/subsumption/const_var_test.go *)
Example t_subsumption_const_var :
  (* TestConstVar_Encoding, TestConstVar_Encoding_Guarded, TestNotConstVar_Encoding, TestNotConstVar_Encoding_Guarded, TestConstVar_Encoding_WrongDim, TestConstVar_Encoding_NilCtx *)
  forallb id [
    forallb (fun tc => runSubsumptionConstVar tc false) SubsumptionPTT;
    forallb (fun tc => runGuardedSubsumptionConstVar tc false) SubsumptionPTT;
    forallb (fun tc => runSubsumptionConstVar tc true) SubsumptionNTT;
    forallb (fun tc => runGuardedSubsumptionConstVar tc true) SubsumptionNTT;
    (let tree := (mock 4 []) in let ctx := (BasicQContext tree) in let x := (mkQConst ""%string [BOT; BOT; BOT]) in let y := "y"%string in let f := (QAtom (SubsCV x y)) in is_err (enc f ctx));
    (let x := (mkQConst ""%string [BOT]) in let y := "y"%string in let f := (QAtom (SubsCV x y)) in is_error "Invalid encoding with nil ctx"%string (enc_nilctx f))] = true.
Proof. vm_compute. reflexivity. Qed.

(* query/predicates/subsumption/var_const_test.go *)
Example t_subsumption_var_const :
  (* TestVarConst_Encoding, TestVarConst_Encoding_Guarded, TestNotVarConst_Encoding, TestNotVarConst_Encoding_Guarded, TestVarConst_Encoding_WrongDim, TestVarConst_Encoding_NilCtx *)
  forallb id [
    forallb (fun tc => runSubsumptionVarConst tc false) SubsumptionPTT;
    forallb (fun tc => runGuardedSubsumptionVarConst tc false) SubsumptionPTT;
    forallb (fun tc => runSubsumptionVarConst tc true) SubsumptionNTT;
    forallb (fun tc => runGuardedSubsumptionVarConst tc true) SubsumptionNTT;
    (let tree := (mock 4 []) in let ctx := (BasicQContext tree) in let x := "x"%string in let y := (mkQConst ""%string [BOT; BOT; BOT]) in let f := (QAtom (SubsVC x y)) in is_err (enc f ctx));
    (let x := "x"%string in let y := (mkQConst ""%string [BOT]) in let f := (QAtom (SubsVC x y)) in is_error "Invalid encoding with nil ctx"%string (enc_nilctx f))] = true.
Proof. vm_compute. reflexivity. Qed.

(* query/predicates/subsumption/var_var_test.go *)
Example t_subsumption_var_var :
  (* TestVarVar_Encoding, TestNotVarVar_Encoding, TestVarVar_Encoding_NilCtx *)
  forallb id [
    forallb (fun tc => runSubsumptionVarVar tc false) SubsumptionPTT;
    forallb (fun tc => runSubsumptionVarVar tc true) SubsumptionNTT;
    (let x := "x"%string in let y := "y"%string in let f := (QAtom (SubsVV x y)) in is_error "Invalid encoding with nil ctx"%string (enc_nilctx f))] = true.
Proof. vm_compute. reflexivity. Qed.

(* query/predicates/lel/const_const_test.go *)
Example t_lel_const_const :
  (* TestConstConst_Encoding, TestConstConst_Encoding_Guarded, TestNotConstConst_Encoding, TestNotConstConst_Encoding_Guarded, TestConstConst_Encoding_WrongDim, TestConstConst_Encoding_NilCtx *)
  forallb id [
    forallb (fun tc => runLELConstConst tc false) LELPTT;
    forallb (fun tc => runGuardedLELConstConst tc false) LELPTT;
    forallb (fun tc => runLELConstConst tc true) LELNTT;
    forallb (fun tc => runGuardedLELConstConst tc true) LELNTT;
    (let tree := (mock 4 []) in let ctx := (BasicQContext tree) in let x := (mkQConst ""%string [BOT; BOT; BOT]) in let y := (mkQConst ""%string [BOT; BOT; BOT]) in let f := (QAtom (LelCC x y)) in is_err (enc f ctx));
    (let x := (mkQConst ""%string [BOT]) in let y := (mkQConst ""%string [BOT]) in let f := (QAtom (LelCC x y)) in is_error "Invalid encoding with nil ctx"%string (enc_nilctx f))] = true.
Proof. vm_compute. reflexivity. Qed.

(* query/predicates/lel/const_var_test.go *)
Example t_lel_const_var :
  (* TestConstVar_Encoding, TestConstVar_Encoding_Guarded, TestNotConstVar_Encoding, TestNotConstVar_Encoding_Guarded, TestConstVar_Encoding_WrongDim, TestConstVar_Encoding_NilCtx *)
  forallb id [
    forallb (fun tc => runLELConstVar tc false) LELPTT;
    forallb (fun tc => runGuardedLELConstVar tc false) LELPTT;
    forallb (fun tc => runLELConstVar tc true) LELNTT;
    forallb (fun tc => runGuardedLELConstVar tc true) LELNTT;
    (let tree := (mock 4 []) in let ctx := (BasicQContext tree) in let x := (mkQConst ""%string [BOT; BOT; BOT]) in let y := "y"%string in let f := (QAtom (LelCV x y (Some VarGenBotCount))) in is_err (enc f ctx));
    (let x := (mkQConst ""%string [BOT]) in let y := "y"%string in let f := (QAtom (LelCV x y (Some VarGenBotCount))) in is_error "Invalid encoding with nil ctx"%string (enc_nilctx f))] = true.
Proof. vm_compute. reflexivity. Qed.

(* query/predicates/lel/var_const_test.go *)
Example t_lel_var_const :
  (* TestVarConst_Encoding, TestVarConst_Encoding_Guarded, TestNotVarConst_Encoding, TestNotVarConst_Encoding_Guarded, TestVarConst_Encoding_WrongDim, TestVarConst_Encoding_NilCtx *)
  forallb id [
    forallb (fun tc => runLELVarConst tc false) LELPTT;
    forallb (fun tc => runGuardedLELVarConst tc false) LELPTT;
    forallb (fun tc => runLELVarConst tc true) LELNTT;
    forallb (fun tc => runGuardedLELVarConst tc true) LELNTT;
    (let tree := (mock 4 []) in let ctx := (BasicQContext tree) in let x := "x"%string in let y := (mkQConst ""%string [BOT; BOT; BOT]) in let f := (QAtom (LelVC x y (Some VarGenBotCount))) in is_err (enc f ctx));
    (let x := "x"%string in let y := (mkQConst ""%string [BOT]) in let f := (QAtom (LelVC x y (Some VarGenBotCount))) in is_error "Invalid encoding with nil ctx"%string (enc_nilctx f))] = true.
Proof. vm_compute. reflexivity. Qed.

(* query/predicates/lel/var_var_test.go *)
Example t_lel_var_var :
  (* TestVarVar_Encoding, TestNotVarVar_Encoding, TestVarVar_Encoding_NilCtx *)
  forallb id [
    forallb (fun tc => runLELVarVar tc false) LELPTT;
    forallb (fun tc => runLELVarVar tc true) LELNTT;
    (let x := "x"%string in let y := "y"%string in let f := (QAtom (LelVV x y (Some VarGenBotCount))) in is_error "Invalid encoding with nil ctx"%string (enc_nilctx f))] = true.
Proof. vm_compute. reflexivity. Qed.

(* query/predicates/isnode/const_test.go *)
Example t_isnode_const :
  (* TestConst_Encoding, TestConst_Encoding_Guarded, TestNotConst_Encoding, TestNotConst_Encoding_Guarded, TestConst_Encoding_WrongDim, TestConstConst_Encoding_NilCtx *)
  forallb id [
    forallb (fun tc => runIsNodeConst tc false) IsNodePTT;
    forallb (fun tc => runGuardedIsNodeConst tc false) IsNodePTT;
    forallb (fun tc => runIsNodeConst tc true) IsNodeNTT;
    forallb (fun tc => runGuardedIsNodeConst tc true) IsNodeNTT;
    (let tree := (mock 4 []) in let ctx := (BasicQContext tree) in let x := (mkQConst ""%string [BOT; BOT; BOT]) in let f := (QAtom (NodeC x)) in is_err (enc f ctx));
    (let x := (mkQConst ""%string [BOT]) in let f := (QAtom (NodeC x)) in is_error "Invalid encoding with nil ctx"%string (enc_nilctx f))] = true.
Proof. vm_compute. reflexivity. Qed.

(* query/predicates/isnode/var_test.go *)
Example t_isnode_var :
  (* TestVar_Encoding, TestNotVar_Encoding, TestVarVar_Encoding_NilCtx *)
  forallb id [
    forallb (fun tc => runIsNodeVar tc false) IsNodePTT;
    forallb (fun tc => runIsNodeVar tc true) IsNodeNTT;
    (let x := "x"%string in let f := (QAtom (NodeV x None)) in is_error "Invalid encoding with nil ctx"%string (enc_nilctx f))] = true.
Proof. vm_compute. reflexivity. Qed.

(* query/extensions/full/const_test.go *)
Example t_full_const :
  (* TestConst_Encoding, TestConst_Encoding_Guarded, TestNotConst_Encoding, TestNotConst_Encoding_Guarded, TestConst_Encoding_WrongDim, TestConst_Encoding_NilCtx *)
  forallb id [
    forallb (fun tc => runFullConst tc false) FullPTT;
    forallb (fun tc => runGuardedFullConst tc false) FullPTT;
    forallb (fun tc => runFullConst tc true) FullNTT;
    forallb (fun tc => runGuardedFullConst tc true) FullNTT;
    (let tree := (mock 4 []) in let ctx := (BasicQContext tree) in let x := (mkQConst ""%string [BOT; BOT; BOT]) in let f := (QAtom (FullC x)) in is_err (enc f ctx));
    (let x := (mkQConst ""%string [BOT]) in let f := (QAtom (FullC x)) in is_error "Invalid encoding with nil ctx"%string (enc_nilctx f))] = true.
Proof. vm_compute. reflexivity. Qed.

(* query/extensions/full/var_test.go *)
Example t_full_var :
  (* TestVar_Encoding, TestNotVar_Encoding, TestVar_Encoding_NilCtx *)
  forallb id [
    forallb (fun tc => runFullVar tc false) FullPTT;
    forallb (fun tc => runFullVar tc true) FullNTT;
    (let x := "x"%string in let f := (QAtom (FullV x)) in is_error "Invalid encoding with nil ctx"%string (enc_nilctx f))] = true.
Proof. vm_compute. reflexivity. Qed.

(* query/extensions/cons/const_const_test.go *)
Example t_cons_const_const :
  (* TestConstConst_Encoding, TestConstConst_Encoding_Guarded, TestNotConstConst_Encoding, TestNotConstConst_Encoding_Guarded, TestConstConst_Encoding_WrongDim, TestConstConst_Encoding_NilCtx *)
  forallb id [
    forallb (fun tc => runConsConstConst tc false) ConsPTT;
    forallb (fun tc => runGuardedConsConstConst tc false) ConsPTT;
    forallb (fun tc => runConsConstConst tc true) ConsNTT;
    forallb (fun tc => runGuardedConsConstConst tc true) ConsNTT;
    (let tree := (mock 4 []) in let ctx := (BasicQContext tree) in let x := (mkQConst ""%string [BOT; BOT; BOT]) in let y := (mkQConst ""%string [BOT; BOT; BOT]) in let f := (QAtom (ConsCC x y)) in is_err (enc f ctx));
    (let x := (mkQConst ""%string [BOT]) in let y := (mkQConst ""%string [BOT]) in let f := (QAtom (ConsCC x y)) in is_error "Invalid encoding with nil ctx"%string (enc_nilctx f))] = true.
Proof. vm_compute. reflexivity. Qed.

(* query/extensions/cons/const_var_test.go *)
Example t_cons_const_var :
  (* TestConstVar_Encoding, TestConstVar_Encoding_Guarded, TestNotConstVar_Encoding, TestNotConstVar_Encoding_Guarded, TestConstVar_Encoding_WrongDim, TestConstVar_Encoding_NilCtx *)
  forallb id [
    forallb (fun tc => runConsConstVar tc false) ConsPTT;
    forallb (fun tc => runGuardedConsConstVar tc false) ConsPTT;
    forallb (fun tc => runConsConstVar tc true) ConsNTT;
    forallb (fun tc => runGuardedConsConstVar tc true) ConsNTT;
    (let tree := (mock 4 []) in let ctx := (BasicQContext tree) in let x := (mkQConst ""%string [BOT; BOT; BOT]) in let y := "y"%string in let f := (QAtom (ConsCV x y)) in is_err (enc f ctx));
    (let x := (mkQConst ""%string [BOT]) in let y := "y"%string in let f := (QAtom (ConsCV x y)) in is_error "Invalid encoding with nil ctx"%string (enc_nilctx f))] = true.
Proof. vm_compute. reflexivity. Qed.

(* query/extensions/cons/var_const_test.go *)
Example t_cons_var_const :
  (* TestVarConst_Encoding, TestVarConst_Encoding_Guarded, TestNotVarConst_Encoding, TestNotVarConst_Encoding_Guarded, TestVarConst_Encoding_WrongDim, TestVarConst_Encoding_NilCtx *)
  forallb id [
    forallb (fun tc => runConsVarConst tc false) ConsPTT;
    forallb (fun tc => runGuardedConsVarConst tc false) ConsPTT;
    forallb (fun tc => runConsVarConst tc true) ConsNTT;
    forallb (fun tc => runGuardedConsVarConst tc true) ConsNTT;
    (let tree := (mock 4 []) in let ctx := (BasicQContext tree) in let x := "x"%string in let y := (mkQConst ""%string [BOT; BOT; BOT]) in let f := (QAtom (ConsVC x y)) in is_err (enc f ctx));
    (let x := "x"%string in let y := (mkQConst ""%string [BOT]) in let f := (QAtom (ConsVC x y)) in is_error "Invalid encoding with nil ctx"%string (enc_nilctx f))] = true.
Proof. vm_compute. reflexivity. Qed.

(* query/extensions/cons/var_var_test.go *)
Example t_cons_var_var :
  (* TestVarVar_Encoding, TestNotVarVar_Encoding, TestVarVar_Encoding_NilCtx *)
  forallb id [
    forallb (fun tc => runConsVarVar tc false) ConsPTT;
    forallb (fun tc => runConsVarVar tc true) ConsNTT;
    (let x := "x"%string in let y := "y"%string in let f := (QAtom (ConsVV x y)) in is_error "Invalid encoding with nil ctx"%string (enc_nilctx f))] = true.
Proof. vm_compute. reflexivity. Qed.

(* query/extensions/allcomp/const_test.go *)
Example t_allcomp_const :
  (* TestConst_Encoding_AllPos, TestConst_Encoding_AllPos_Guarded, TestNotConst_Encoding_AllPos, TestNotConst_Encoding_AllPos_Guarded, TestConst_Encoding_AllNeg, TestConst_Encoding_AllNeg_Guarded, TestNotConst_Encoding_AllNeg, TestNotConst_Encoding_AllNeg_Guarded, TestConst_Encoding_WrongDim, TestConst_Encoding_NilCtx *)
  forallb id [
    forallb (fun tc => runAllCompConst tc true false) AllPosPTT;
    forallb (fun tc => runGuardedAllCompConst tc true false) AllPosPTT;
    forallb (fun tc => runAllCompConst tc true true) AllPosNTT;
    forallb (fun tc => runGuardedAllCompConst tc true true) AllPosNTT;
    forallb (fun tc => runAllCompConst tc false false) AllNegPTT;
    forallb (fun tc => runGuardedAllCompConst tc false false) AllNegPTT;
    forallb (fun tc => runAllCompConst tc false true) AllNegNTT;
    forallb (fun tc => runGuardedAllCompConst tc false true) AllNegNTT;
    (let tree := (mock 4 []) in let ctx := (BasicQContext tree) in let x := (mkQConst ""%string [BOT; BOT; BOT]) in let f := (QAtom (AllC x false)) in is_err (enc f ctx));
    (let x := (mkQConst ""%string [BOT]) in let f := (QAtom (AllC x false)) in is_error "Invalid encoding with nil ctx"%string (enc_nilctx f))] = true.
Proof. vm_compute. reflexivity. Qed.

(* query/extensions/allcomp/var_test.go *)
Example t_allcomp_var :
  (* TestVar_Encoding_AllPos, TestNotVar_Encoding_AllPos, TestVar_Encoding_AllNeg, TestNotVar_Encoding_AllNeg, TestVar_Encoding_NilCtx *)
  forallb id [
    forallb (fun tc => runAllCompVar tc true false) AllPosPTT;
    forallb (fun tc => runAllCompVar tc true true) AllPosNTT;
    forallb (fun tc => runAllCompVar tc false false) AllNegPTT;
    forallb (fun tc => runAllCompVar tc false true) AllNegNTT;
    (let x := "x"%string in let f := (QAtom (AllV x false None)) in is_error "Invalid encoding with nil ctx"%string (enc_nilctx f))] = true.
Proof. vm_compute. reflexivity. Qed.

(* query/extensions/dfs/const_test.go *)
Example t_dfs_const :
  (* TestConst_Encoding, TestNotConst_Encoding, TestConst_Encoding_Guarded, TestNotConst_Encoding_Guarded, TestConst_Encoding_WrongDim, TestConst_Encoding_NilCtx *)
  forallb id [
    forallb (fun tc => runDFSConst tc false) DFSPTT;
    forallb (fun tc => runDFSConst tc true) DFSNTT;
    forallb (fun tc => runGuardedDFSConst tc false) DFSPTT;
    forallb (fun tc => runGuardedDFSConst tc true) DFSNTT;
    (let tree := (mock 4 []) in let ctx := (BasicQContext tree) in let x := (mkQConst ""%string [BOT; BOT; BOT]) in let f := (QAtom (DfsC x)) in is_err (enc f ctx));
    (let x := (mkQConst ""%string [BOT]) in let f := (QAtom (DfsC x)) in is_error "Invalid encoding with nil ctx"%string (enc_nilctx f))] = true.
Proof. vm_compute. reflexivity. Qed.

(* query/extensions/dfs/var_test.go *)
Example t_dfs_var :
  (* TestVar_Encoding, TestNotVar_Encoding, TestVar_Encoding_NilCtx *)
  forallb id [
    forallb (fun tc => runDFSVar tc false) DFSPTT;
    forallb (fun tc => runDFSVar tc true) DFSNTT;
    (let x := "x"%string in let f := (QAtom (DfsV x)) in is_error "Invalid encoding with nil ctx"%string (enc_nilctx f))] = true.
Proof. vm_compute. reflexivity. Qed.

(* query/extensions/hepr/const_const_test.go *)
Example t_hepr_const_const :
  (* TestConstConst_Encoding, TestConstConst_Encoding_Guarded, TestNotConstConst_Encoding, TestNotConstConst_Encoding_Guarded, TestConstConst_Encoding_WrongDim, TestConstConst_Encoding_WrongPref, TestConstConst_Encoding_NilCtx *)
  forallb id [
    forallb (fun tc => runHEPRConstConst tc false) HEPRPTT;
    forallb (fun tc => runGuardedHEPRConstConst tc false) HEPRPTT;
    forallb (fun tc => runHEPRConstConst tc true) HEPRNTT;
    forallb (fun tc => runGuardedHEPRConstConst tc true) HEPRNTT;
    (let tree := (mock 4 []) in let ctx := (BasicQContext tree) in let x := (mkQConst ""%string [BOT; BOT; BOT]) in let y := (mkQConst ""%string [BOT; BOT; BOT]) in let f := (QAtom (HeprCC x y [])) in is_err (enc f ctx));
    (let tree := (mock 4 []) in let ctx := (BasicQContext tree) in let x := (mkQConst ""%string [BOT; BOT; BOT]) in let y := (mkQConst ""%string [BOT; BOT; BOT]) in let f := (QAtom (HeprCC x y [1; 2; 1])) in is_err (enc f ctx));
    (let x := (mkQConst ""%string [BOT]) in let y := (mkQConst ""%string [BOT]) in let f := (QAtom (HeprCC x y [])) in is_error "Invalid encoding with nil ctx"%string (enc_nilctx f))] = true.
Proof. vm_compute. reflexivity. Qed.

(* query/extensions/hepr/const_var_test.go *)
Example t_hepr_const_var :
  (* TestConstVar_Encoding, TestConstVar_Encoding_Guarded, TestNotConstVar_Encoding, TestNotConstVar_Encoding_Guarded, TestConstVar_Encoding_WrongDim, TestConstVar_Encoding_WrongPref, TestConstVar_Encoding_NilCtx *)
  forallb id [
    forallb (fun tc => runHEPRConstVar tc false) HEPRPTT;
    forallb (fun tc => runGuardedHEPRConstVar tc false) HEPRPTT;
    forallb (fun tc => runHEPRConstVar tc true) HEPRNTT;
    forallb (fun tc => runGuardedHEPRConstVar tc true) HEPRNTT;
    (let tree := (mock 4 []) in let ctx := (BasicQContext tree) in let x := (mkQConst ""%string [BOT; BOT; BOT]) in let y := "y"%string in let f := (QAtom (HeprCV x y [] None)) in is_err (enc f ctx));
    (let tree := (mock 4 []) in let ctx := (BasicQContext tree) in let x := (mkQConst ""%string [BOT; BOT; BOT]) in let y := "y"%string in let f := (QAtom (HeprCV x y [1; 2; 1] None)) in is_err (enc f ctx));
    (let x := (mkQConst ""%string [BOT]) in let y := "y"%string in let f := (QAtom (HeprCV x y [] None)) in is_error "Invalid encoding with nil ctx"%string (enc_nilctx f))] = true.
Proof. vm_compute. reflexivity. Qed.

(* query/extensions/hepr/var_const_test.go *)
Example t_hepr_var_const :
  (* TestVarConst_Encoding, TestVarConst_Encoding_Guarded, TestNotVarConst_Encoding, TestNotVarConst_Encoding_Guarded, TestVarConst_Encoding_WrongDim, TestVarConst_Encoding_WrongPref, TestVarConst_Encoding_NilCtx *)
  forallb id [
    forallb (fun tc => runHEPRVarConst tc false) HEPRPTT;
    forallb (fun tc => runGuardedHEPRVarConst tc false) HEPRPTT;
    forallb (fun tc => runHEPRVarConst tc true) HEPRNTT;
    forallb (fun tc => runGuardedHEPRVarConst tc true) HEPRNTT;
    (let tree := (mock 4 []) in let ctx := (BasicQContext tree) in let x := "x"%string in let y := (mkQConst ""%string [BOT; BOT; BOT]) in let f := (QAtom (HeprVC x y [] None)) in is_err (enc f ctx));
    (let tree := (mock 4 []) in let ctx := (BasicQContext tree) in let x := "x"%string in let y := (mkQConst ""%string [BOT; BOT; BOT]) in let f := (QAtom (HeprVC x y [1; 2; 1] None)) in is_err (enc f ctx));
    (let x := "x"%string in let y := (mkQConst ""%string [BOT]) in let f := (QAtom (HeprVC x y [] None)) in is_error "Invalid encoding with nil ctx"%string (enc_nilctx f))] = true.
Proof. vm_compute. reflexivity. Qed.

(* query/extensions/hepr/var_var_test.go *)
Example t_hepr_var_var :
  (* TestVarVar_Encoding, TestNotVarVar_Encoding, TestVarVar_Encoding_WrongDim, TestVarVar_Encoding_WrongPref, TestVarVar_Encoding_NilCtx *)
  forallb id [
    forallb (fun tc => runHEPRVarVar tc false) HEPRPTT;
    forallb (fun tc => runHEPRVarVar tc true) HEPRNTT;
    (let tree := (mock 4 []) in let ctx := (BasicQContext tree) in let x := "x"%string in let y := "y"%string in let f := (QAtom (HeprVV x y [] None)) in is_err (enc f ctx));
    (let tree := (mock 4 []) in let ctx := (BasicQContext tree) in let x := "x"%string in let y := "y"%string in let f := (QAtom (HeprVV x y [1; 2; 1] None)) in is_err (enc f ctx));
    (let x := "x"%string in let y := "y"%string in let f := (QAtom (HeprVV x y [] None)) in is_error "Invalid encoding with nil ctx"%string (enc_nilctx f))] = true.
Proof. vm_compute. reflexivity. Qed.

(* query/extensions/leh/const_const_const_test.go *)
Example t_leh_const_const_const :
  (* TestConstConstConst_Encoding, TestNotConstConstConst_Encoding, TestConstConstConst_Encoding_Guarded, TestNotConstConstConst_Encoding_Guarded, TestConstConstConst_Encoding_WrongDim, TestConstConstConst_Encoding_NilCtx *)
  forallb id [
    forallb (fun tc => runLEHConstConstConst tc false) LEHPTT;
    forallb (fun tc => runLEHConstConstConst tc true) LEHNTT;
    forallb (fun tc => runGuardedLEHConstConstConst tc false) LEHPTT;
    forallb (fun tc => runGuardedLEHConstConstConst tc true) LEHNTT;
    (let tree := (mock 4 []) in let ctx := (BasicQContext tree) in let x := (mkQConst ""%string [BOT; BOT; BOT]) in let y := (mkQConst ""%string [BOT; BOT; BOT]) in let z := (mkQConst ""%string [BOT; BOT; BOT]) in let f := (QAtom (LehCCC x y z)) in is_err (enc f ctx));
    (let x := (mkQConst ""%string [BOT; BOT; BOT]) in let y := (mkQConst ""%string [BOT; BOT; BOT]) in let z := (mkQConst ""%string [BOT; BOT; BOT]) in let f := (QAtom (LehCCC x y z)) in is_error "Invalid encoding with nil ctx"%string (enc_nilctx f))] = true.
Proof. vm_compute. reflexivity. Qed.

(* query/extensions/leh/const_const_var_test.go *)
Example t_leh_const_const_var :
  (* TestConstConstVar_Encoding, TestConstConstVar_Encoding_Guarded, TestNotConstConstVar_Encoding, TestNotConstConstVar_Encoding_Guarded, TestConstConstVar_Encoding_WrongDim, TestConstConstVar_Encoding_NilCtx *)
  forallb id [
    forallb (fun tc => runLEHConstConstVar tc false) LEHPTT;
    forallb (fun tc => runGuardedLEHConstConstVar tc false) LEHPTT;
    forallb (fun tc => runLEHConstConstVar tc true) LEHNTT;
    forallb (fun tc => runGuardedLEHConstConstVar tc true) LEHNTT;
    (let tree := (mock 4 []) in let ctx := (BasicQContext tree) in let x := (mkQConst ""%string [BOT; BOT; BOT]) in let y := (mkQConst ""%string [BOT; BOT; BOT]) in let z := "z"%string in let f := (QAtom (LehCCV x y z None)) in is_err (enc f ctx));
    (let x := (mkQConst ""%string [BOT; BOT; BOT]) in let y := (mkQConst ""%string [BOT; BOT; BOT]) in let z := "z"%string in let f := (QAtom (LehCCV x y z None)) in is_error "Invalid encoding with nil ctx"%string (enc_nilctx f))] = true.
Proof. vm_compute. reflexivity. Qed.

(* query/extensions/leh/const_var_const_test.go *)
Example t_leh_const_var_const :
  (* TestConstVarConst_Encoding, TestNotConstVarConst_Encoding, TestConstVarConst_Encoding_Guarded, TestNotConstVarConst_Encoding_Guarded, TestConstVarConst_Encoding_WrongDim, TestConstVarConst_Encoding_NilCtx *)
  forallb id [
    forallb (fun tc => runLEHConstVarConst tc false) LEHPTT;
    forallb (fun tc => runLEHConstVarConst tc true) LEHNTT;
    forallb (fun tc => runGuardedLEHConstVarConst tc false) LEHPTT;
    forallb (fun tc => runGuardedLEHConstVarConst tc true) LEHNTT;
    (let tree := (mock 4 []) in let ctx := (BasicQContext tree) in let x := (mkQConst ""%string [BOT; BOT; BOT]) in let y := "y"%string in let z := (mkQConst ""%string [BOT; BOT; BOT]) in let f := (QAtom (LehCVC x y z None)) in is_err (enc f ctx));
    (let x := (mkQConst ""%string [BOT; BOT; BOT]) in let y := "y"%string in let z := (mkQConst ""%string [BOT; BOT; BOT]) in let f := (QAtom (LehCVC x y z None)) in is_error "Invalid encoding with nil ctx"%string (enc_nilctx f))] = true.
Proof. vm_compute. reflexivity. Qed.

(* query/extensions/leh/const_var_var_test.go *)
Example t_leh_const_var_var :
  (* TestConstVarVar_Encoding, TestConstVarVar_Encoding_Guarded, TestNotConstVarVar_Encoding, TestNotConstVarVar_Encoding_Guarded, TestConstVarVar_Encoding_WrongDim, TestConstVarVar_Encoding_NilCtx *)
  forallb id [
    forallb (fun tc => runLEHConstVarVar tc false) LEHPTT;
    forallb (fun tc => runGuardedLEHConstVarVar tc false) LEHPTT;
    forallb (fun tc => runLEHConstVarVar tc true) LEHNTT;
    forallb (fun tc => runGuardedLEHConstVarVar tc true) LEHNTT;
    (let tree := (mock 4 []) in let ctx := (BasicQContext tree) in let x := (mkQConst ""%string [BOT; BOT; BOT]) in let y := "y"%string in let z := "z"%string in let f := (QAtom (LehCVV x y z None)) in is_err (enc f ctx));
    (let x := (mkQConst ""%string [BOT; BOT; BOT]) in let y := "y"%string in let z := "z"%string in let f := (QAtom (LehCVV x y z None)) in is_error "Invalid encoding with nil ctx"%string (enc_nilctx f))] = true.
Proof. vm_compute. reflexivity. Qed.

(* query/extensions/leh/var_const_const_test.go *)
Example t_leh_var_const_const :
  (* TestVarConstConst_Encoding, TestNotVarConstConst_Encoding, TestVarConstConst_Encoding_Guarded, TestNotVarConstConst_Encoding_Guarded, TestVarConstConst_Encoding_WrongDim, TestVarConstConst_Encoding_NilCtx *)
  forallb id [
    forallb (fun tc => runLEHVarConstConst tc false) LEHPTT;
    forallb (fun tc => runLEHVarConstConst tc true) LEHNTT;
    forallb (fun tc => runGuardedLEHVarConstConst tc false) LEHPTT;
    forallb (fun tc => runGuardedLEHVarConstConst tc true) LEHNTT;
    (let tree := (mock 4 []) in let ctx := (BasicQContext tree) in let x := "x"%string in let y := (mkQConst ""%string [BOT; BOT; BOT]) in let z := (mkQConst ""%string [BOT; BOT; BOT]) in let f := (QAtom (LehVCC x y z None)) in is_err (enc f ctx));
    (let x := "x"%string in let y := (mkQConst ""%string [BOT; BOT; BOT]) in let z := (mkQConst ""%string [BOT; BOT; BOT]) in let f := (QAtom (LehVCC x y z None)) in is_error "Invalid encoding with nil ctx"%string (enc_nilctx f))] = true.
Proof. vm_compute. reflexivity. Qed.

(* query/extensions/leh/var_const_var_test.go *)
Example t_leh_var_const_var :
  (* TestVarConstVar_Encoding, TestVarConstVar_Encoding_Guarded, TestNotVarConstVar_Encoding, TestNotVarConstVar_Encoding_Guarded, TestVarConstVar_Encoding_WrongDim, TestVarConstVar_Encoding_NilCtx *)
  forallb id [
    forallb (fun tc => runLEHVarConstVar tc false) LEHPTT;
    forallb (fun tc => runGuardedLEHVarConstVar tc false) LEHPTT;
    forallb (fun tc => runLEHVarConstVar tc true) LEHNTT;
    forallb (fun tc => runGuardedLEHVarConstVar tc true) LEHNTT;
    (let tree := (mock 4 []) in let ctx := (BasicQContext tree) in let x := "x"%string in let y := (mkQConst ""%string [BOT; BOT; BOT]) in let z := "z"%string in let f := (QAtom (LehVCV x y z None None)) in is_err (enc f ctx));
    (let x := "x"%string in let y := (mkQConst ""%string [BOT; BOT; BOT]) in let z := "z"%string in let f := (QAtom (LehVCV x y z None None)) in is_error "Invalid encoding with nil ctx"%string (enc_nilctx f))] = true.
Proof. vm_compute. reflexivity. Qed.

(* query/extensions/leh/var_var_const_test.go *)
Example t_leh_var_var_const :
  (* TestVarVarConst_Encoding, TestNotVarVarConst_Encoding, TestVarVarConst_Encoding_Guarded, TestNotVarVarConst_Encoding_Guarded, TestVarVarConst_Encoding_WrongDim, TestVarVarConst_Encoding_NilCtx *)
  forallb id [
    forallb (fun tc => runLEHVarVarConst tc false) LEHPTT;
    forallb (fun tc => runLEHVarVarConst tc true) LEHNTT;
    forallb (fun tc => runGuardedLEHVarVarConst tc false) LEHPTT;
    forallb (fun tc => runGuardedLEHVarVarConst tc true) LEHNTT;
    (let tree := (mock 4 []) in let ctx := (BasicQContext tree) in let x := "x"%string in let y := "y"%string in let z := (mkQConst ""%string [BOT; BOT; BOT]) in let f := (QAtom (LehVVC x y z None None)) in is_err (enc f ctx));
    (let x := "x"%string in let y := "y"%string in let z := (mkQConst ""%string [BOT; BOT; BOT]) in let f := (QAtom (LehVVC x y z None None)) in is_error "Invalid encoding with nil ctx"%string (enc_nilctx f))] = true.
Proof. vm_compute. reflexivity. Qed.

(* query/extensions/leh/var_var_var_test.go *)
Example t_leh_var_var_var :
  (* TestVarVarVar_Encoding, TestNotVarVarVar_Encoding, TestVarVarVar_Encoding_NilCtx *)
  forallb id [
    forallb (fun tc => runLEHVarVarVar tc false) LEHPTT;
    forallb (fun tc => runLEHVarVarVar tc true) LEHNTT;
    (let x := "x"%string in let y := "y"%string in let z := "z"%string in let f := (QAtom (LehVVV x y z None None)) in is_error "Invalid encoding with nil ctx"%string (enc_nilctx f))] = true.
Proof. vm_compute. reflexivity. Qed.


Local Open Scope string_scope.
Local Open Scope Z_scope.
Local Open Scope list_scope.

(* ---- cnf/cnf_test.go ---- *)

Fixpoint clause_eqb (a b : clause) : bool :=
  match a, b with [], [] => true | x :: a, y :: b => (x =? y) && clause_eqb a b | _, _ => false end.
Fixpoint clauses_eqb (a b : list clause) : bool :=
  match a, b with [], [] => true | x :: a, y :: b => clause_eqb x y && clauses_eqb a b | _, _ => false end.

Definition validClauses (f : CNF) (sc cc : list clause) (top : Z) : bool :=
  clauses_eqb (sClauses f) sc && clauses_eqb (cClauses f) cc && (tv f =? top).
Definition test_cnf : CNF := AppendConsistency (FromClauses [[1; 2]; [3; 4]; [-1; 2]]) [[1; 2; 3; 4]; [-1; -2]; [4]].
Definition nls : string := String (Ascii.ascii_of_nat 10) EmptyString.
Definition test_bytes : string :=
  ("p cnf 4 6" ++ nls ++ "1 2 0" ++ nls ++ "3 4 0" ++ nls ++ "-1 2 0" ++ nls ++ "1 2 3 4 0" ++ nls ++ "-1 -2 0" ++ nls ++ "4 0" ++ nls)%string.
Example t_cnf :
  forallb id [
    (* TestCNF_Negate_Empty .. TestCNF_Negate_MultipleClauses *)
    validClauses (Negate (mkCNF 0 [] []) None) [[]] [] 0;
    validClauses (Negate (mkCNF 3 [[]] [[1; 2; 3]]) None) [] [[1; 2; 3]] 3;
    validClauses (Negate (mkCNF 3 [[1]] [[1; 2; 3]]) None) [[-1]] [[1; 2; 3]] 3;
    validClauses (Negate (mkCNF 3 [[1; 2]] [[1; 2; 3]]) None) [[4]] [[1; 2; 3]; [-1; -4]; [-2; -4]; [1; 2; 4]] 4;
    validClauses (Negate (mkCNF 3 [[1; 2]; [-2; 3]] [[1; 2; 3]]) None) [[6]]
      [[1; 2; 3]; [-1; -4]; [-2; -4]; [1; 2; 4]; [2; -5]; [-3; -5]; [-2; 3; 5]; [-4; 6]; [-5; 6]; [4; 5; -6]] 6;
    (* TestCNF_Conjunctions, TestCNF_ExtendSemantic, TestCNF_ExtendConsistency *)
    validClauses (Conjunction (mkCNF 3 [[1; 2]; [2; 3]] [[1; 2]]) (mkCNF 4 [[-3; 4]] [])) [[1; 2]; [2; 3]; [-3; 4]] [[1; 2]] 4;
    validClauses (AppendSemantics (mkCNF 2 [[1; 2]] []) [[2; 3]; [-3; 4]]) [[1; 2]; [2; 3]; [-3; 4]] [] 4;
    validClauses (AppendConsistency (mkCNF 2 [[1; 2]] []) [[2; 3]; [-3; 4]]) [[1; 2]] [[2; 3]; [-3; 4]] 4;
    (* TestCNF_ToBytes, TestCNF_ToFile *)
    String.eqb (ToBytes test_cnf) test_bytes;
    match ToFile true (fun _ => true) test_cnf with Ok s => String.eqb s test_bytes | _ => false end] = true.
Proof. vm_compute. reflexivity. Qed.

(* ---- query/logop ---- *)

(* query/internal/test/clauses.go:11-46: clauses as sets of strings; a negative
   literal is not a valid code point and is written as U+FFFD. *)
Definition clauseId (c : clause) : clause := map (fun l => if l <? 0 then 65533 else l) c.
Definition equalClauseSlice (a b : list clause) : bool :=
  (length a =? length b)%nat && forallb (fun c => existsb (clause_eqb (clauseId c)) (map clauseId b)) a.
Definition ValidClauses (r : res CNF * ctx) (esc ecc : list clause) : bool :=
  match fst r with Ok f => equalClauseSlice (sClauses f) esc && equalClauseSlice (cClauses f) ecc | _ => false end.
(* the same without losing signs, order and repetitions *)
Definition exactClauses (r : res CNF * ctx) (esc ecc : list clause) : bool :=
  match fst r with Ok f => clauses_eqb (sClauses f) esc && clauses_eqb (cClauses f) ecc | _ => false end.

(* query/internal/test/trivial.go *)
Definition Trivial (b : bool) : gquery := GOut (PBool b).
Definition tctx : ctx := BasicQContext (mock 1 []).
Definition exactly1 (n : Z) : list clause := [[n; n + 1; n + 2]; [- n; - (n + 1)]; [- n; - (n + 2)]; [- (n + 1); - (n + 2)]].
Definition xy_clauses : list clause := [[1; 2; 3]; [-1; -2]; [-1; -3]; [-2; -3]; [4; 5; 6]; [-4; -5]; [-4; -6]; [-5; -6]].
Definition both (r : res CNF * ctx) (esc ecc : list clause) : bool := ValidClauses r esc ecc && exactClauses r esc ecc.
(* stands for any sub-query: it is not reached *)
Definition anyq : query := QAtom (FullC (mkQConst "" [])).

(* query/logop/and_test.go *)
Example t_and :
  forallb id [
    both (genc (GAnd (GWith "x" (Trivial true)) (GWith "y" (Trivial true))) tctx) [] xy_clauses;
    both (genc (GAnd (GWith "x" (Trivial false)) (GWith "y" (Trivial false))) tctx) [[]; []] xy_clauses;
    both (genc (GAnd (GWith "x" (Trivial true)) (GWith "y" (Trivial false))) tctx) [[]] xy_clauses;
    is_error "And: Invalid encoding with nil ctx" (enc_nilctx (QAnd anyq anyq));
    is_error "And: Invalid encoding of nil child (1)" (fst (genc (GAnd GNil (Trivial true)) tctx));
    is_error "And: Invalid encoding of nil child (2)" (fst (genc (GAnd (Trivial true) GNil) tctx))] = true.
Proof. vm_compute. reflexivity. Qed.

(* query/logop/not_test.go *)
Example t_not :
  forallb id [
    both (genc (GNot (GWith "x" (Trivial false))) tctx) [] [[1; 2; 3]; [-1; -2]; [-1; -3]; [-2; -3]];
    is_error "Not: Invalid encoding with nil ctx" (enc_nilctx (QNot anyq));
    is_error "Not: Invalid encoding of nil child" (fst (genc (GNot GNil) tctx))] = true.
Proof. vm_compute. reflexivity. Qed.

(* query/logop/or_test.go *)
Example t_or :
  forallb id [
    both (genc (GOr (GWith "x" (Trivial true)) (GWith "y" (Trivial true))) tctx) [] xy_clauses;
    both (genc (GOr (GWith "x" (Trivial false)) (GWith "y" (Trivial false))) tctx) [[]] xy_clauses;
    both (genc (GOr (GWith "x" (Trivial true)) (GWith "y" (Trivial false))) tctx) [] xy_clauses;
    is_error "Or: Invalid encoding with nil ctx" (enc_nilctx (QOr anyq anyq));
    is_error "Or: Invalid encoding of nil child (1)" (fst (genc (GOr GNil (Trivial true)) tctx));
    is_error "Or: Invalid encoding of nil child (2)" (fst (genc (GOr (Trivial true) GNil) tctx))] = true.
Proof. vm_compute. reflexivity. Qed.

(* query/logop/with_var_test.go *)
Example t_with_var :
  forallb id [
    both (genc (GWith "x" (GWith "y" (Trivial false))) tctx) [[]] xy_clauses;
    match genc (GWith "x" (Trivial true)) (setScope (addScope tctx "T") 1 [BOT]) with
    | (Ok _, c) => match ScopeVar (cScoper c) "x" with Ok w => negb (String.eqb w "x") | _ => false end
    | _ => false
    end;
    is_error "WithVar: Invalid encoding with nil ctx" (enc_nilctx (QWith "x" anyq));
    is_error "WithVar: Invalid encoding of nil child" (fst (genc (GWith "x" GNil) tctx))] = true.
Proof. vm_compute. reflexivity. Qed.

(* query/logop/forallguarded_test.go:12-23: the clauses meant to be negative are
   [-1+3i, -2+3i], ..; from i = 1 on their signs are wrong. *)
Definition variable_clauses (n : nat) : list clause :=
  flat_map (fun k => let i := 3 * Z.of_nat k in [[1 + i; 2 + i; 3 + i]; [-1 + i; -2 + i]; [-1 + i; -3 + i]; [-2 + i; -3 + i]]) (seq 0 n).
Definition variable_clauses_meant (n : nat) : list clause := flat_map (fun k => exactly1 (1 + 3 * Z.of_nat k)) (seq 0 n).
Definition tree3 : model := mock 1 [mkNode false 0 1 2; mkNode false 0 (-1) (-1); mkNode false 0 (-1) (-1)].
Definition tree5 : model :=
  mock 2 [mkNode false 0 2 1; mkNode false 0 (-1) (-1); mkNode false 1 3 4; mkNode false 0 (-1) (-1); mkNode false 0 (-1) (-1)].
(* forallguarded_test.go:55-64 *)
Definition isBot (v : QVar) : gquery := GOut (PScopeVar v (fun w => PCNFVar (w, 0, BOT) (fun n => PClauses [[n]] []))).
(* forallguarded_test.go:117-137 *)
Fixpoint witness (e : list FeatV) (acc : clause) : comp :=
  match e with
  | [] => PClauses [] [acc]
  | x :: e => PCNFVar (EmptyString, 0, x) (fun n => witness e (acc ++ [n]))
  end.
Definition fagVerifyConst (k : QConst) : gquery :=
  GOut (PScopeConst k (fun r => PCNFVar (EmptyString, 0, BOT) (fun _ => PCNFVar (EmptyString, 0, ONE) (fun _ =>
          PCNFVar (EmptyString, 0, ZERO) (fun _ => witness (cVal (fst r)) []))))).
Definition kx : QConst := mkQConst "x" [].
Definition kz : QConst := mkQConst "z" [].
Definition alternation : gquery := GAll kx (GWith "y" (GAll kz (GWith "w" (isBot "y")))).
Definition alternation_sem : list clause := [[3]; [3]; [3]; [15]; [15]; [15]; [27]; [27]; [27]].
Definition iterated : list clause := [[1; 1]; [3; 1]; [3; 3]; [3; 2]; [2; 1]].
Example t_forallguarded :
  forallb id [
    exactClauses (genc (GAll kx (GWith "y" (Trivial true))) (BasicQContext tree3)) [] (variable_clauses_meant 3);
    exactClauses (genc alternation (BasicQContext tree3)) alternation_sem (variable_clauses_meant 12);
    both (genc (GAll kx (fagVerifyConst kx)) (BasicQContext tree5)) [] iterated;
    is_error "ForAllGuarded: Invalid encoding with nil ctx" (enc_nilctx (QAll kx anyq));
    is_error "ForAllGuarded: Invalid encoding of nil child" (fst (genc (GAll kx GNil) tctx))] = true.
Proof. vm_compute. reflexivity. Qed.
Example t_forallguarded_as_written :
  [ValidClauses (genc (GAll kx (GWith "y" (Trivial true))) (BasicQContext tree3)) [] (variable_clauses 3);
   ValidClauses (genc alternation (BasicQContext tree3)) alternation_sem (variable_clauses 12)] = [true; true].
Proof. vm_compute. reflexivity. Qed.

(* ---- compute ---- *)

(* compute/boolcomb_test.go *)
Definition satA (negated : bool) : comb := CAtom (QAtom (LelCC (mkQConst "" [BOT]) (mkQConst "" [ONE]))) negated.
Definition unsatA : comb := CAtom (QAtom (LelCC (mkQConst "" [ONE]) (mkQConst "" [BOT]))) false.
Definition fresh_solver : solver := mkSolver "" 0.
Definition comb_gives (k : comb) (b : bool) : bool :=
  match CombSat ideal k fresh_solver tctx with (Ok r, _, _) => Bool.eqb r b | _ => false end.
Example t_boolcomb :
  forallb id [comb_gives (CAnd [satA false; satA false]) true; comb_gives (CAnd [satA false; unsatA]) false;
    comb_gives (COr [satA false; unsatA]) true; comb_gives (COr [unsatA; unsatA]) false;
    comb_gives (satA false) true; comb_gives (satA true) false] = true.
Proof. vm_compute. reflexivity. Qed.

(* compute/optimum_test.go *)
Definition lelFormula (v : QVar) : query :=
  QAnd (QAtom (SubsVC v (mkQConst "" [ONE; ONE; ONE]))) (QNot (QAtom (SubsVC v (mkQConst "" [BOT; BOT; BOT])))).
Definition lelOrder (v : QVar) (c : QConst) : query :=
  QAnd (QAtom (LelVC v c (Some VarGenBotCount))) (QNot (QAtom (LelCV c v (Some VarGenBotCount)))).
Definition feats_eqb (a b : list FeatV) : bool := (length a =? length b)%nat && forallb (fun p => fst p =? snd p) (combine a b).
Example t_optimum :
  match ComputeOptim 10 ideal lelFormula lelOrder "x" (BasicQContext (mock 3 [])) fresh_solver with
  | (Ok o, _, _) => oFound o && existsb (feats_eqb (cVal (oValue o))) [[BOT; BOT; ONE]; [BOT; ONE; BOT]; [ONE; BOT; BOT]]
  | _ => false
  end = true.
Proof. vm_compute. reflexivity. Qed.
